From Coq Require Import ZArith List Bool Arith Lia Permutation ZifyBool.
From Verif Require Import MatSpec MatTheory MatProofs EqModel EqSpec EqProofs BMapGauss SeqModel SeqSpec SeqProofs MatModel SortModel BMapModel BMapSpec BMapSem BMapLists BMapGauss2 BDupModel BDupProofs LocalModel BElimModel BElimSpec BElimCols BElimProofs BElimVars SimpModel SimpSpec SimpBase SimpFinal SetModel SetSpec SetBase SetLift SetOps SetOps3 SetMaps SubModel SubDisj GistModel GistSpec GistFlat GistFull GistUset.
Import ListNotations.
Open Scope Z_scope.
Open Scope Z_scope.

(** [v] is the image of [w] *)
Definition image (n nw : nat) (T : mat) (v w : list Z) : Prop :=
  at_point n v /\ at_point nw w /\ forall i, (i < 1 + n)%nat -> MatSpec.apply (1 + nw) (elt T) (fun j => nth j w 0) i = nth i v 0.
Lemma rows_is_mat n l : rows_of n l -> is_mat (length l) n l.
Proof. intros H. split; [reflexivity|]. intros r Hr. pose proof (proj1 (Forall_nth_iff _ _ []) H r Hr) as L. exact L. Qed.
Lemma product_dot n nw B T v w : rows_of (1 + n) B -> image n nw T v w ->
  rows_of (1 + nw) (mat_product (length B) (1 + nw) B T) /\ length (mat_product (length B) (1 + nw) B T) = length B /\
  forall i, (i < length B)%nat -> dot (nth i (mat_product (length B) (1 + nw) B T) []) w = dot (nth i B []) v.
Proof.
  intros RB ((Lv & _) & (Lw & _) & IM). destruct (MatProofs.product_ok (length B) (1 + n) (1 + nw) B T (rows_is_mat _ _ RB)) as ((PL & PR) & PE).
  split; [|split; [exact PL|]]. { apply (Forall_nth_iff _ _ []). intros i Hi. rewrite PL in Hi. exact (PR i Hi). }
  intros i Hi. pose proof (proj1 (Forall_nth_iff _ _ []) RB i Hi) as Li. cbn beta in Li. rewrite !dot_sumn by (rewrite ?(PR i Hi); congruence). rewrite (PR i Hi), Li.
  rewrite (sumn_ext (1 + nw) _ (fun k => sumn (1 + n) (fun j => elt B i j * elt T j k * nth k w 0))).
  - rewrite sumn_swap. apply sumn_ext. intros k Hk. rewrite <- (IM k Hk). unfold MatSpec.apply. change MatSpec.total with sumn. rewrite <- (sumn_mul (1 + nw) (nth k (nth i B []) 0)). apply sumn_ext. intros j Hj. unfold elt. ring.
  - intros k Hk. change (nth k (nth i (mat_product (length B) (1 + nw) B T) []) 0) with (elt (mat_product (length B) (1 + nw) B T) i k). rewrite (PE i k Hi Hk). unfold times. change MatSpec.total with sumn; rewrite <- sumn_mul_r. reflexivity.
Qed.
Lemma product_shape n nw B T : rows_of (1 + n) B -> rows_of (1 + nw) (mat_product (length B) (1 + nw) B T) /\ length (mat_product (length B) (1 + nw) B T) = length B.
Proof.
  intros RB. destruct (MatProofs.product_ok (length B) (1 + n) (1 + nw) B T (rows_is_mat _ _ RB)) as ((PL & PR) & PE). split; [|exact PL]. apply (Forall_nth_iff _ _ []). intros i Hi. rewrite PL in Hi. exact (PR i Hi).
Qed.
Lemma compression_image n B T T2 : rows_of (1 + n) B -> variable_compression (length B) n B = Ok (Some (T, T2)) ->
  forall v, at_point n v -> Forall (zero_on v) B -> exists w, image n (n - length B) T v w.
Proof.
  intros RB E v Av Z. pose proof (final_variable_compression_ok (length B) 0 n B (rows_is_mat _ _ RB)) as H. unfold variable_compression in E. rewrite E in H. destruct H as (_ & _ & T0 & (_ & _ & CP & _)).
  specialize (T0 eq_refl). change (get T 0 0) with (elt T 0 0) in T0. set (nw := (n - length B)%nat) in *. destruct Av as [Lv Hv]. destruct (CP (fun j => nth j v 0)) as [A0 AI].
  - unfold homogeneous. destruct v; [discriminate Lv|exact Hv].
  - intros i Hi. unfold MatSpec.apply. change MatSpec.total with sumn. pose proof (proj1 (Forall_nth_iff _ _ []) RB i Hi) as Li. cbn beta in Li. pose proof (proj1 (Forall_nth_iff _ _ []) Z i Hi) as Zi. unfold zero_on in Zi. rewrite dot_sumn in Zi by congruence. rewrite Li in Zi. exact Zi.
  - set (w := map (MatSpec.apply (1 + 0 + n) (elt T2) (fun j => nth j v 0)) (seq 0 (1 + nw))). assert (Nw : forall j, (j < 1 + nw)%nat -> nth j w 0 = MatSpec.apply (1 + 0 + n) (elt T2) (fun j => nth j v 0) j).
    { intros j Hj. unfold w. rewrite (nth_indep _ 0 (MatSpec.apply (1 + 0 + n) (elt T2) (fun j => nth j v 0) 0)) by (rewrite map_length, seq_length; exact Hj). rewrite map_nth. rewrite seq_nth by exact Hj. reflexivity. }
    assert (Lw : length w = (1 + nw)%nat) by (unfold w; rewrite map_length, seq_length; reflexivity).
    exists w. split; [split; assumption|]. split; [split; [exact Lw|]|].
    + assert (hd 0 w = nth 0 w 0) as -> by (destruct w; reflexivity). rewrite Nw by lia. exact A0.
    + intros i Hi. specialize (AI i Hi). rewrite T0, Z.mul_1_l in AI. rewrite <- AI. unfold MatSpec.apply at 1 2. change MatSpec.total with sumn. apply sumn_ext. intros j Hj. rewrite (Nw j Hj). reflexivity.
Qed.
Lemma compression_none n B : rows_of (1 + n) B -> variable_compression (length B) n B = Ok None -> forall v, at_point n v -> ~ Forall (zero_on v) B.
Proof.
  intros RB E v [Lv Hv] Z. pose proof (final_variable_compression_ok (length B) 0 n B (rows_is_mat _ _ RB)) as H. unfold variable_compression in E. rewrite E in H. apply (H (fun j => nth j v 0)).
  - unfold homogeneous. destruct v; [discriminate Lv|exact Hv].
  - intros i Hi. unfold MatSpec.apply. change MatSpec.total with sumn. pose proof (proj1 (Forall_nth_iff _ _ []) RB i Hi) as Li. cbn beta in Li. pose proof (proj1 (Forall_nth_iff _ _ []) Z i Hi) as Zi. unfold zero_on in Zi. rewrite dot_sumn in Zi by congruence. rewrite Li in Zi. exact Zi.
Qed.
Lemma empty_set_flat n : flat n (empty_set n) /\ (forall v, at_point n v -> ~ sat (empty_set n) v) /\ forall c, zcol c (empty_set n).
Proof.
  assert (F : flat n (fresh_map 0 0 n)). { apply flat_intro; [repeat split; constructor|repeat split|reflexivity|reflexivity|intros C; discriminate C]. }
  destruct (set_to_empty_flat n _ F) as [F1 N1]. split; [exact F1|]. split; [exact N1|]. intros c. apply set_to_empty_z. split; constructor.
Qed.
Lemma scale_down_dot l g v : 0 < g -> Forall (fun x => (g | x)) l -> dot l v = g * dot (seq_scale_down l g) v.
Proof.
  intros Hg D. revert v. induction D as [|x l (q & Q) _ IH]; intros v; [cbn; lia|]. destruct v as [|y v]; [cbn; lia|]. cbn [seq_scale_down map dot]. change (map (fun x => divexact x g) l) with (seq_scale_down l g). rewrite (IH v). unfold divexact. rewrite Q, Z.div_mul by lia. ring.
Qed.
Lemma zupd_dot_0 r x v : r <> [] -> hd 0 v = 1 -> v <> [] -> dot (zupd r 0 x) v = dot r v - hd 0 r + x.
Proof. intros Nr Hv Nv. destruct r as [|a r]; [congruence|]. destruct v as [|b v]; [congruence|]. cbn in Hv. subst b. unfold zupd. cbn. lia. Qed.
Lemma tighten_ok r w x y : r <> [] -> w <> [] -> hd 0 x = 1 -> x <> [] -> hd 0 y = 1 -> y <> [] -> dot w y = dot r x ->
  let '(r', w') := tighten r w in (0 <= dot r x <-> 0 <= dot r' x) /\ exists g, 0 < g /\ dot r' x = g * dot w' y.
Proof.
  intros Nr Nw Hx Nx Hy Ny E. unfold tighten. cbv zeta. destruct ((seq_gcd (tl w) =? 0) || (seq_gcd (tl w) =? 1)) eqn:EG; [split; [reflexivity|]; exists 1; lia|].
  set (g := seq_gcd (tl w)) in *. pose proof (seq_gcd_ok (tl w)) as (G0 & GD & _). fold g in G0, GD. apply Forall_forall in GD. assert (Hg : 0 < g) by lia.
  rewrite (zupd_dot_0 r _ x Nr Hx Nx). rewrite (dot_hd_tl w y Hy Ny) in E. pose proof (scale_down_dot (tl w) g (tl y) Hg GD) as SD. rewrite (dot_hd_tl (_ :: _) y Hy Ny). cbn [hd tl]. set (k := dot (seq_scale_down (tl w) g) (tl y)) in *.
  pose proof (Z.div_mod (hd 0 w) g ltac:(lia)) as DM. pose proof (Z.mod_pos_bound (hd 0 w) g Hg) as MB. set (q := hd 0 w / g) in *. set (rm := hd 0 w mod g) in *. split.
  - split; intros H; [|lia]. assert (QK : dot r x = g * (q + k) + rm) by (rewrite <- E, SD, DM; ring). clearbody q rm k g. assert (0 <= q + k) by (destruct (Z.lt_ge_cases (q + k) 0); [exfalso; nia|lia]). rewrite QK. nia.
  - exists g. split; [exact Hg|]. rewrite <- E, SD, DM. ring.
Qed.

Section Params.
Variable hash : row -> nat.
Variable no_redundant : bmap -> bool.
Variable tab : bmap -> bool * list kind.
Variable fuel : nat.
Hypothesis TAB : sound_tab tab.
Variable is_empty : bmap -> bool.
Hypothesis EMPTY : sound_emptiness_test is_empty.
Variable gist_tab : bmap -> nat -> bool * list kind.
Hypothesis GTAB : sound_gist_tab gist_tab.

Lemma preimage_ok n ctx T nw c' : flat n ctx -> b_empty ctx = false -> preimage hash no_redundant tab fuel ctx T nw = Ok c' ->
  flat nw c' /\ forall v w, image n nw T v w -> (sat ctx v <-> sat c' w).
Proof.
  intros F E EP. unfold preimage in EP. match type of EP with simp_fin _ _ _ _ ?X = _ => set (b := X) in EP end. destruct (flat_wf n ctx F) as [R1 R2]. destruct (product_shape n nw (b_eq ctx) T R1) as [P1 P2]. destruct (product_shape n nw (b_ineq ctx) T R2) as [P3 P4].
  assert (FB : flat nw b). { apply flat_intro; [|repeat split|reflexivity|apply F|intros C; cbn in C; congruence]. unfold wf, BMapModel.total, ndiv, nvar. cbn. rewrite Nat.add_0_r. split; [exact P1|split; [exact P3|constructor]]. }
  destruct (simp_fin_flat hash no_redundant tab fuel TAB nw b c' FB EP) as [F' Q]. split; [exact F'|]. intros v w IM. rewrite <- (Q w (proj1 (proj2 IM))). destruct (product_dot n nw (b_eq ctx) T v w R1 IM) as (_ & _ & D1). destruct (product_dot n nw (b_ineq ctx) T v w R2 IM) as (_ & _ & D2).
  unfold sat, system. cbn [b b_eq b_ineq]. rewrite !(Forall_nth_iff _ _ []). rewrite P2, P4. split; intros [A B]; split; intros i Hi; specialize (A i) || idtac; unfold zero_on, nonneg_on in *.
  - rewrite D1 by exact Hi. apply A. exact Hi.
  - rewrite D2 by exact Hi. apply B. exact Hi.
  - rewrite <- D1 by exact Hi. apply A. exact Hi.
  - rewrite <- D2 by exact Hi. apply B. exact Hi.
Qed.
Lemma zupd_0_nth r x c : nth (S c) (zupd r 0 x) 0 = nth (S c) r 0.
Proof. destruct r; reflexivity. Qed.
Lemma compressed_ok n s ctx T nw s' : flat n s -> emptied s -> flat n ctx -> b_empty ctx = false -> uset_gist_compressed hash no_redundant tab fuel is_empty gist_tab s ctx T nw = Ok s' ->
  flat n s' /\ (b_empty s = false -> plainly_empty n s') /\ (forall c, zcol c s -> zcol c s') /\ (forall v, at_point n v -> sat s' v -> Forall (zero_on v) (b_eq s)) /\
  forall v w, image n nw T v w -> sat ctx v -> (sat s v <-> sat s' v).
Proof.
  intros F EB FC EC. unfold uset_gist_compressed. cbv zeta. destruct (preimage hash no_redundant tab fuel ctx T nw) as [c1| | |] eqn:EP; cbn [bind]; try discriminate. destruct (preimage_ok n ctx T nw c1 FC EC EP) as [F1 Q1].
  destruct (b_empty c1) eqn:E1.
  - intros [= <-]. destruct F as (_ & (_ & _ & ->) & _). destruct (empty_set_flat n) as (FE & NE & ZE). split; [exact FE|]. split; [intros _ _; split; reflexivity|]. split; [auto|]. split; [intros v Av S; destruct (NE v Av S)|].
    intros v w IM SC. apply (Q1 v w IM) in SC. rewrite (flat_nonempty nw c1 w F1 (proj1 (proj2 IM)) SC) in E1. discriminate E1.
  - intros EU. destruct (flat_wf n s F) as [R1 R2]. destruct (product_shape n nw (b_ineq s) T R2) as [P3 P4]. set (ineq := mat_product (length (b_ineq s)) (1 + nw) (b_ineq s) T) in *. set (l := map (fun p => tighten (fst p) (snd p)) (combine (b_ineq s) ineq)) in *.
    assert (LL : length l = length (b_ineq s)) by (unfold l; rewrite map_length, combine_length; lia).
    assert (NL : forall i, (i < length (b_ineq s))%nat -> nth i l ([], []) = tighten (nth i (b_ineq s) []) (nth i ineq [])).
    { intros i Hi. unfold l. change (@nil Z, @nil Z) with ((fun p : row * row => tighten (fst p) (snd p)) ([], [])). rewrite map_nth. rewrite combine_nth by lia. reflexivity. }
    assert (N1 : forall i, nth i (map fst l) [] = fst (nth i l ([], []))) by (intros i; change (@nil Z) with (fst (@nil Z, @nil Z)) at 1; apply map_nth).
    assert (N2 : forall i, nth i (map snd l) [] = snd (nth i l ([], []))) by (intros i; change (@nil Z) with (snd (@nil Z, @nil Z)) at 1; apply map_nth).
    assert (TL : forall i, (i < length (b_ineq s))%nat -> length (fst (nth i l ([], []))) = (1 + n)%nat /\ length (snd (nth i l ([], []))) = (1 + nw)%nat /\ forall c, nth (S c) (fst (nth i l ([], []))) 0 = nth (S c) (nth i (b_ineq s) []) 0).
    { intros i Hi. rewrite (NL i Hi). pose proof (proj1 (Forall_nth_iff _ _ []) R2 i Hi) as La. pose proof (proj1 (Forall_nth_iff _ _ []) P3 i ltac:(lia)) as Lb. cbn beta in La, Lb. unfold tighten. cbv zeta. destruct (_ || _); cbn [fst snd]; [auto|]. split; [rewrite zupd_length; exact La|]. split; [|intros c; apply zupd_0_nth].
      cbn [length]. unfold seq_scale_down. rewrite map_length, tl_length_row. lia. }
    set (s1 := set_ineq s (map fst l)) in *. assert (L1 : length (map fst l) = length (b_ineq s)) by (rewrite map_length; exact LL).
    assert (FS1 : flat n s1).
    { pose proof F as (P & SZ & D). destruct (b_empty s) eqn:ES.
      - pose proof (EB ES) as E0. assert (E2 : map fst l = []) by (apply length_zero_iff_nil; rewrite L1, E0; reflexivity). unfold s1. rewrite E2, <- E0. destruct s; exact F.
      - apply flat_intro; [|exact SZ|exact D|apply P|intros C; cbn in C; congruence]. destruct (flat_nvar n s F) as (_ & _ & TT). destruct P as ((W1 & W2 & W3) & _). split; [exact W1|]. split; [|exact W3]. apply (Forall_nth_iff _ _ []). cbn [s1 set_ineq b_ineq]. change (BMapModel.total s1) with (BMapModel.total s). rewrite TT, L1. intros i Hi. rewrite N1. apply (TL i Hi). }
    assert (EB1 : emptied s1). { intros ES. cbn [s1 set_ineq b_ineq]. apply length_zero_iff_nil. rewrite L1, (EB ES). reflexivity. }
    assert (RI : rows_of (1 + nw) (map snd l)). { apply (Forall_nth_iff _ _ []). rewrite map_length, LL. intros i Hi. rewrite N2. apply (TL i Hi). }
    destruct (full_ok hash is_empty EMPTY gist_tab GTAB n nw s1 (map snd l) c1 s' FS1 EB1 F1 E1 RI) as (F2 & PE2 & Z2 & Q2 & R3); [cbn [s1 set_ineq b_ineq]; rewrite !map_length; reflexivity|exact EU|].
    split; [exact F2|]. split; [exact PE2|]. split; [|split; [exact Q2|]].
    + intros c [A B]. apply Z2. split; [exact A|]. cbn [s1 set_ineq b_ineq]. apply (Forall_nth_iff _ _ []). rewrite L1. intros i Hi. rewrite N1. unfold zrow. change (1 + c)%nat with (S c). rewrite (proj2 (proj2 (TL i Hi))). apply (proj1 (Forall_nth_iff _ _ []) B i Hi).
    + intros v w IM SC. pose proof IM as ((Lv & Hv) & (Lw & Hw) & _). destruct (product_dot n nw (b_ineq s) T v w R2 IM) as (_ & _ & D2). fold ineq in D2.
      assert (TK : forall i, (i < length (b_ineq s))%nat -> (0 <= dot (nth i (b_ineq s) []) v <-> 0 <= dot (nth i (map fst l) []) v) /\ exists g, 0 < g /\ dot (nth i (map fst l) []) v = g * dot (nth i (map snd l) []) w).
      { intros i Hi. rewrite N1, N2, (NL i Hi). pose proof (proj1 (Forall_nth_iff _ _ []) R2 i Hi) as La. pose proof (proj1 (Forall_nth_iff _ _ []) P3 i ltac:(lia)) as Lb. cbn beta in La, Lb.
        pose proof (tighten_ok (nth i (b_ineq s) []) (nth i ineq []) v w) as K. destruct (tighten (nth i (b_ineq s) []) (nth i ineq [])) as [ra rb]. cbn [fst snd]. apply K; try assumption; [..|apply D2; exact Hi]; intros C; rewrite C in *; discriminate. }
      rewrite <- (R3 v w).
      * unfold sat, system. cbn [s1 set_ineq b_ineq b_eq]. rewrite !(Forall_nth_iff (nonneg_on v) _ []), L1. split; intros [A B]; (split; [exact A|]); intros i Hi; unfold nonneg_on in *; apply (TK i Hi); apply B; exact Hi.
      * split; [apply IM|]. split; [apply IM|]. split; [apply (Q1 v w IM); exact SC|]. intros i Hi. cbn [s1 set_ineq b_ineq]. apply TK. rewrite map_length in Hi. lia.
Qed.

(** ** the affine hull of the context on the variables of the set *)
Lemma elim1_ok n b i b' : flat n b -> b_empty b = false -> (i < n)%nat -> eliminate_vars hash no_redundant tab b i 1 = Ok b' ->
  forall v0, at_point n v0 -> sat b v0 ->
  flat n b' /\ b_empty b' = false /\ (forall v, at_point n v -> sat b v -> sat b' v) /\ zcol i b' /\ forall c, zcol c b -> zcol c b'.
Proof.
  intros F E Hi EV v0 A0 S0. destruct (flat_nvar n b F) as (NV & ND & TT). pose proof F as (P & (S1 & S2 & S3) & D). unfold eliminate_vars in EV. cbn [Nat.eqb] in EV.
  destruct (init_ok b i 1 ltac:(lia) (proj1 P) (proj1 (proj2 P))) as (L & W1 & _). set (b1 := clear_divs (remove_dependent b i 1) i 1) in *.
  assert (NDb1 : ndiv b1 = ndiv b) by apply L. assert (B1 : b1 = b). { assert (DB : b_div b1 = []) by (unfold ndiv in NDb1; rewrite D in NDb1; destruct (b_div b1); [reflexivity|discriminate NDb1]). rewrite (proj1 L), DB. destruct b. cbn in *. rewrite D. reflexivity. }
  rewrite B1 in *. clear b1 B1 L W1 NDb1.
  assert (TY : tidy (fun _ => True) b) by (right; intros k j Hk; lia).
  cbn [elim_loop] in EV. rewrite Nat.add_0_r in EV. destruct (elim_step_ok hash no_redundant tab TAB (fun _ => True) b i false (proj1 P) TY I ltac:(lia) E) as (b2 & ng & stop & EE & SP). rewrite EE in EV. destruct SP as (SS & W2 & T2 & PR & Z2 & ZD & N2 & ST).
  assert (PT : forall v, at_point n v -> sat b v -> points b2 v).
  { intros v [Lv Hv] Sv. apply (proj1 PR v v); [lia|split; [lia|intros _; exact Hv]|apply (flat_points n b v F (conj Lv Hv)); exact Sv|apply agree_refl]. }
  assert (E2 : b_empty b2 = false) by apply (PT v0 A0 S0). rewrite E2 in ST. subst stop. specialize (N2 E2).
  assert (F2 : flat n b2). { destruct SS as (Q1 & Q2 & Q3 & Q4). apply flat_intro; [exact W2|repeat split; congruence| |rewrite Q4; apply P|intros C; congruence]. unfold ndiv in *. destruct (b_div b2); [reflexivity|cbn in N2; lia]. }
  assert (R2 : flat n b2 /\ b_empty b2 = false /\ (forall v, at_point n v -> sat b v -> sat b2 v) /\ zcol i b2 /\ forall c, zcol c b -> zcol c b2).
  { split; [exact F2|]. split; [exact E2|]. split; [intros v Av Sv; apply (flat_points n b2 v F2 Av); apply PT; assumption|]. split; [exact ZD|]. intros c. apply Z2. exact I. }
  destruct ng.
  - destruct (gauss b2) as [[b3 p]| | |] eqn:EG; try discriminate EV. injection EV as <-. destruct (gauss_flat n b2 b3 p F2 EG) as (F3 & Q3 & Z3). destruct R2 as (_ & _ & R3 & R4 & R5). split; [exact F3|]. split; [apply (flat_nonempty n b3 v0 F3 A0); apply (Q3 v0 A0); apply R3; assumption|].
    split; [intros v Av Sv; apply (Q3 v Av); apply R3; assumption|]. split; [apply Z3; exact R4|]. intros c Zc. apply Z3, R5, Zc.
  - injection EV as <-. exact R2.
Qed.
Lemma appears_false l i : appears l i = false -> Forall (zrow i) l.
Proof. intros H. apply Forall_forall. intros r Hr. unfold zrow. destruct (Z.eq_dec (nth (1 + i) r 0) 0) as [E|N]; [exact E|]. exfalso. assert (appears l i = true); [|congruence]. apply existsb_exists. exists r. split; [exact Hr|]. apply negb_true_iff, Z.eqb_neq, N. Qed.
Lemma zcol_appears b c : zcol c b -> appears (b_eq b) c || appears (b_ineq b) c = false.
Proof.
  assert (G : forall l, Forall (zrow c) l -> appears l c = false).
  { intros l Hl. unfold appears. destruct (existsb _ l) eqn:E; [|reflexivity]. apply existsb_exists in E. destruct E as (r & Hr & N). rewrite Forall_forall in Hl. specialize (Hl r Hr). unfold zrow in Hl. rewrite Hl in N. discriminate N. }
  intros [A B]. rewrite (G _ A), (G _ B). reflexivity.
Qed.
Lemma project_ok n tmpl v0 : at_point n v0 -> forall k i b b', (i + k <= n)%nat -> flat n b -> sat b v0 -> project_loop hash no_redundant tab k i b tmpl = Ok b' ->
  flat n b' /\ (forall v, at_point n v -> sat b v -> sat b' v) /\ (forall c, zcol c tmpl -> (c < i)%nat -> zcol c b -> zcol c b') /\ forall c, zcol c tmpl -> (i <= c < i + k)%nat -> zcol c b'.
Proof.
  intros A0. assert (KEEP : forall k i b b', (i + k <= n)%nat -> flat n b -> sat b v0 -> project_loop hash no_redundant tab k i b tmpl = Ok b' ->
    flat n b' /\ (forall v, at_point n v -> sat b v -> sat b' v) /\ (forall c, zcol c b -> zcol c b') /\ forall c, zcol c tmpl -> (i <= c < i + k)%nat -> zcol c b').
  { induction k as [|k IH]; intros i b b' Hk F S0; cbn [project_loop]; [intros [= <-]; split; [exact F|]; split; [auto|]; split; [auto|intros; lia]|].
    destruct (appears (b_eq tmpl) i || appears (b_ineq tmpl) i) eqn:EA; cbn [bind].
    - intros E. destruct (IH (S i) b b' ltac:(lia) F S0 E) as (A & B & C & D). split; [exact A|]. split; [exact B|]. split; [exact C|]. intros c Zc Hc. destruct (Nat.eq_dec c i) as [->|N]; [rewrite (zcol_appears tmpl i Zc) in EA; discriminate EA|apply D; [exact Zc|lia]].
    - destruct (eliminate_vars hash no_redundant tab b i 1) as [b1| | |] eqn:EV; cbn [bind]; try discriminate. intros E. destruct (elim1_ok n b i b1 F (flat_nonempty n b v0 F A0 S0) ltac:(lia) EV v0 A0 S0) as (F1 & E1 & Q1 & Z1 & K1).
      destruct (IH (S i) b1 b' ltac:(lia) F1 (Q1 v0 A0 S0) E) as (A & B & C & D). split; [exact A|]. split; [intros v Av Sv; apply B; [exact Av|apply Q1; assumption]|]. split; [intros c Zc; apply C, K1, Zc|]. intros c Zc Hc. destruct (Nat.eq_dec c i) as [->|N]; [apply C; exact Z1|apply D; [exact Zc|lia]]. }
  intros k i b b' Hk F S0 E. destruct (KEEP k i b b' Hk F S0 E) as (A & B & C & D). split; [exact A|]. split; [exact B|]. split; [intros c _ _; apply C|exact D].
Qed.

(** ** reduction *)
Lemma reduce_row_ok eqs n : rows_of (1 + n) eqs -> forall k r, (k <= n)%nat -> length r = (1 + n)%nat ->
  length (reduce_row k eqs n r) = (1 + n)%nat /\ (forall c, Forall (zrow c) eqs -> zrow c r -> zrow c (reduce_row k eqs n r)) /\ exists g, 0 < g /\ forall v, Forall (zero_on v) eqs -> dot (reduce_row k eqs n r) v = g * dot r v.
Proof.
  intros R. induction k as [|d IH]; intros r Hk L; cbn [reduce_row]; [split; [exact L|]; split; [auto|]; exists 1; split; [lia|]; intros; lia|].
  destruct (_ =? 0); [apply IH; [lia|exact L]|]. destruct (elim_row eqs n d None) as [e|] eqn:E; [|apply IH; [lia|exact L]].
  apply elim_row_in in E as [[I1 LV]|E]; [|discriminate E]. unfold rows_of in R. rewrite Forall_forall in R. pose proof (R e I1) as Le. unfold last_var, seq_last_non_zero in LV. apply last_non_zero_some in LV as [NZ _].
  assert (NZ' : nth (1 + d) e 0 <> 0). { intros Q. apply NZ. destruct (Nat.lt_ge_cases d (length (firstn n (tl e)))) as [H|H]; [|apply nth_overflow; exact H]. transitivity (nth d (tl e) 0); [rewrite <- (firstn_skipn n (tl e)) at 2; rewrite app_nth1 by exact H; reflexivity|]. destruct e; [destruct d; reflexivity|exact Q]. }
  destruct (elim_ok r e (1 + d) 1 ltac:(lia) ltac:(lia) NZ') as (a & b & Ha & CB & _). assert (LL : length (fst (seq_elim r e (1 + d) 1)) = (1 + n)%nat) by (destruct CB as [CL _]; lia).
  destruct (IH _ ltac:(lia) LL) as (Q1 & Q2 & g & Hg & Q3). split; [exact Q1|]. split.
  - intros c Zc Zr. apply Q2; [exact Zc|]. unfold zrow in *. rewrite Forall_forall in Zc. apply seq_elim_0; [exact Zr|exact (Zc e I1)].
  - exists (g * a). split; [nia|]. intros v Hv. rewrite (Q3 v Hv). rewrite (combination_dot a r b e _ v ltac:(lia) CB). rewrite Forall_forall in Hv. specialize (Hv e I1). unfold zero_on in Hv. rewrite Hv. ring.
Qed.
(** the set only depends on the first [k] variables *)
Definition depends (n k : nat) (b : bmap) : Prop :=
  forall v v', at_point n v -> at_point n v' -> firstn (1 + k) v = firstn (1 + k) v' -> (sat b v <-> sat b v').
Lemma zrow_dot n k r v v' : length v = (1 + n)%nat -> length v' = (1 + n)%nat -> length r = (1 + n)%nat -> (forall c, (k <= c < n)%nat -> zrow c r) -> firstn (1 + k) v = firstn (1 + k) v' -> dot r v = dot r v'.
Proof.
  intros Lv Lv' Lr Z E. rewrite !dot_sumn by congruence. apply sumn_ext. intros j Hj. destruct (Nat.lt_ge_cases j (1 + k)) as [L|G].
  - rewrite <- (nth_firstn_lt v 0 (1 + k) j L), <- (nth_firstn_lt v' 0 (1 + k) j L), E. reflexivity.
  - specialize (Z (j - 1)%nat ltac:(lia)). unfold zrow in Z. replace (1 + (j - 1))%nat with j in Z by lia. rewrite Z. lia.
Qed.
Lemma zcol_depends n k b : flat n b -> (forall c, (k <= c < n)%nat -> zcol c b) -> depends n k b.
Proof.
  intros F Z v v' [Lv _] [Lv' _] E. destruct (flat_wf n b F) as [R1 R2]. unfold sat, system.
  assert (G : forall r, In r (b_eq b) \/ In r (b_ineq b) -> dot r v = dot r v').
  { intros r Hr. apply (zrow_dot n k); [exact Lv|exact Lv'| | |exact E].
    - unfold rows_of in *. rewrite Forall_forall in R1, R2. destruct Hr; auto.
    - intros c Hc. destruct (Z c Hc) as [Z1 Z2]. rewrite Forall_forall in Z1, Z2. destruct Hr; auto. }
  rewrite !Forall_forall. unfold zero_on, nonneg_on. split; intros [A B]; split; intros r Hr; [rewrite <- G by auto|rewrite <- G by auto|rewrite G by auto|rewrite G by auto]; auto.
Qed.
Lemma depends_same n k b b' : depends n k b -> (forall v, at_point n v -> (sat b v <-> sat b' v)) -> depends n k b'.
Proof. intros D Q v v' Av Av' E. rewrite <- (Q v Av), <- (Q v' Av'). apply D; assumption. Qed.
Lemma depends_none n k b : (forall v, at_point n v -> ~ sat b v) -> depends n k b.
Proof. intros N v v' Av Av' _. split; intros H; [destruct (N v Av H)|destruct (N v' Av' H)]. Qed.
Lemma reduce_const eqs n x m : forall k, reduce_row k eqs n (x :: repeat 0 m) = x :: repeat 0 m.
Proof.
  induction k as [|k IH]; cbn [reduce_row]; [reflexivity|]. change (1 + k)%nat with (S k). cbn [nth]. rewrite nth_repeat. cbn. exact IH.
Qed.
Lemma reduce_ok n k s ctx s' : flat n s -> plainly_empty n s -> flat n ctx -> (forall c, (k <= c < n)%nat -> zcol c s) -> (forall c, (k <= c < n)%nat -> zcol c ctx) -> reduce_using_equalities hash no_redundant tab fuel s ctx = Ok s' ->
  flat n s' /\ depends n k s' /\ forall v, at_point n v -> sat ctx v -> (sat s v <-> sat s' v).
Proof.
  intros F PE FC Zs Zc. unfold reduce_using_equalities. destruct (Nat.eqb_spec (length (b_eq ctx)) 0) as [L0|L0]; [intros [= <-]; split; [exact F|]; split; [apply zcol_depends; assumption|intros; reflexivity]|].
  cbv zeta. pose proof F as (P & SZ & D). assert (OS : b_out s = n) by apply SZ. rewrite OS. set (f := reduce_row n (b_eq ctx) n). match goal with |- simp_fin _ _ _ _ ?X = _ -> _ => set (b := X) end. intros ES.
  destruct (flat_wf n s F) as [R1 R2]. destruct (flat_wf n ctx FC) as [C1 C2]. destruct (flat_nvar n s F) as (NV & ND & TT).
  assert (RR : forall l, rows_of (1 + n) l -> rows_of (1 + n) (map f l)). { intros l Hl. apply Forall_map. eapply Forall_impl; [|exact Hl]. intros r Lr. apply (reduce_row_ok (b_eq ctx) n C1 n r (le_n _) Lr). }
  assert (SY : forall v, Forall (zero_on v) (b_eq ctx) -> (sat s v <-> sat b v)).
  { intros v Hv. unfold sat, system. cbn [b set_eq set_ineq b_eq b_ineq]. rewrite !Forall_map. unfold rows_of in R1, R2. rewrite !Forall_forall in *. unfold zero_on, nonneg_on.
    assert (G : forall r, length r = (1 + n)%nat -> exists g, 0 < g /\ dot (f r) v = g * dot r v). { intros r Lr. destruct (reduce_row_ok (b_eq ctx) n C1 n r (le_n _) Lr) as (_ & _ & g & Hg & E). exists g. split; [exact Hg|]. apply E. apply Forall_forall. exact Hv. }
    split; intros [A B]; split; intros r Hr.
    - destruct (G r (R1 r Hr)) as (g & Hg & ->). rewrite (A r Hr). lia.
    - destruct (G r (R2 r Hr)) as (g & Hg & ->). specialize (B r Hr). nia.
    - destruct (G r (R1 r Hr)) as (g & Hg & E). specialize (A r Hr). rewrite E in A. nia.
    - destruct (G r (R2 r Hr)) as (g & Hg & E). specialize (B r Hr). rewrite E in B. nia. }
  assert (ZB : forall c, (k <= c < n)%nat -> zcol c b).
  { intros c Hc. destruct (Zs c Hc) as [A B]. destruct (Zc c Hc) as [A' _]. split; cbn [b set_eq set_ineq b_eq b_ineq]; apply Forall_map; unfold rows_of in R1, R2; rewrite Forall_forall in *; intros r Hr; [apply (reduce_row_ok (b_eq ctx) n C1 n r (le_n _) (R1 r Hr))|apply (reduce_row_ok (b_eq ctx) n C1 n r (le_n _) (R2 r Hr))]; try apply Forall_forall; auto. }
  assert (FB : flat n b).
  { apply flat_intro; [|exact SZ|exact D|apply P|].
    - destruct P as ((W1 & W2 & W3) & _). unfold wf. change (BMapModel.total b) with (BMapModel.total s). rewrite TT. cbn [b set_eq set_ineq b_eq b_ineq b_div]. split; [apply RR; exact R1|]. split; [apply RR; exact R2|]. rewrite TT in W3. exact W3.
    - intros EM v Lv Hv SV. cbn [b set_eq set_ineq b_empty] in EM. destruct (PE EM) as [PE1 PE2]. unfold system in SV. cbn [b set_eq set_ineq b_eq b_ineq] in SV. rewrite PE1 in SV. destruct SV as [SV _]. cbn [map] in SV. apply Forall_cons_iff in SV. destruct SV as [SV1 _]. unfold zero_on in SV1. unfold f in SV1. rewrite reduce_const in SV1.
      revert SV1. apply (one_row n v); [|lia]. rewrite Lv. change (BMapModel.total b) with (BMapModel.total s). rewrite TT. reflexivity. }
  destruct (simp_fin_flat hash no_redundant tab fuel TAB n b s' FB ES) as [F' Q']. split; [exact F'|]. split; [apply (depends_same n k b); [apply zcol_depends; assumption|exact Q']|]. intros v Av SC. rewrite (SY v (proj1 SC)). apply Q'. exact Av.
Qed.
End Params.
