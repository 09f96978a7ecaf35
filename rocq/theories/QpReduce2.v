(** Reduction of the integer divisions of a quasi-polynomial: the effect on the polynomial, and the substitution of the
    integer divisions with denominator one. *)
From Coq Require Import ZArith List Bool QArith Arith Lia ZifyBool Setoid.
From Verif Require Import SeqModel SeqSpec SeqProofs MatModel ValModel LocalModel LocalSpec LocalProofs BMapModel BMapLists SpaceModel PolyModel PolySpec PolyBase PolyOps PolyOps2 PolyThms QpModel QpSpec QpProofs QpReduce.
From Verif Require BElimFM BMapGauss2 RdivMore RdivCoal SimpDrop.
Import ListNotations.
Open Scope Z_scope.

Lemma skipn_at (w : list Z) : forall k, (k < length w)%nat -> skipn k w = nth k w 0 :: skipn (S k) w.
Proof. induction w as [|x w IH]; intros k H; [cbn in H; lia|]. destruct k as [|k]; [reflexivity|]. cbn [skipn nth]. rewrite (IH k) by (cbn in H; lia). reflexivity. Qed.
Lemma nth_first (w : list Z) k m : (k < m)%nat -> nth k (firstn m w) 0 = nth k w 0.
Proof. intros H. rewrite nth_firstn. destruct (Nat.ltb_spec k m); [reflexivity|lia]. Qed.
Lemma affv_dot w : forall f i, (affv (wval w) i f == inject_Z (dot f (skipn (1 + i) w)))%Q.
Proof.
  induction f as [|c f IH]; intros i; [cbn [affv]; destruct (skipn (1 + i) w); reflexivity|]. cbn [affv]. rewrite IH. destruct (Nat.lt_ge_cases (1 + i) (length w)) as [H|H].
  - rewrite (skipn_at w (1 + i) H). change (S (1 + i)) with (1 + S i)%nat.
    change (dot (c :: f) (nth (1 + i) w 0 :: skipn (1 + S i) w)) with (c * nth (1 + i) w 0 + dot f (skipn (1 + S i) w)). rewrite inject_Z_plus, inject_Z_mult. reflexivity.
  - rewrite !skipn_all2 by lia. unfold wval. rewrite nth_overflow by lia. rewrite !dot_nil_r. change (inject_Z 0) with 0%Q. ring.
Qed.
Lemma affv_agree x y : forall f i, (forall k, (k < length f)%nat -> nth k f 0 = 0 \/ (x (i + k)%nat == y (i + k)%nat)%Q) -> (affv x i f == affv y i f)%Q.
Proof.
  induction f as [|c f IH]; intros i H; [reflexivity|]. cbn [affv]. rewrite (IH (S i)).
  - destruct (H 0%nat ltac:(cbn; lia)) as [E|E]; [cbn in E; subst c; change (inject_Z 0) with 0%Q; ring|]. rewrite Nat.add_0_r in E. rewrite E. reflexivity.
  - intros k Hk. specialize (H (S k) ltac:(cbn; lia)). replace (S i + k)%nat with (i + S k)%nat by lia. exact H.
Qed.
(** the polynomial of an affine expression *)
Lemma affine_poly a den b : 0 < den -> (1 <= length a <= 1 + b)%nat -> exists m, from_affine a den = Ok m /\ ordered b m /\
  (forall x, inject_Z den * pval x m == inject_Z (nth 0 a 0%Z) + affv x 0 (tl a))%Q /\
  (forall w, nth 0 w 0 = 1 -> w <> [] -> (inject_Z den * pval (wval w) m == inject_Z (dot a w))%Q).
Proof.
  intros Hd L. destruct a as [|c f]; cbn in L; [lia|]. destruct (from_affine_ok c f den b Hd ltac:(lia)) as (m & A & B & C). exists m. split; [exact A|]. split; [exact B|]. split; [exact C|].
  intros w W0 Nw. rewrite C, affv_dot. destruct w as [|x w]; [congruence|]. cbn in W0. subst x. change (dot (c :: f) (1 :: w)) with (c * 1 + dot f w). rewrite Z.mul_1_r, inject_Z_plus. reflexivity.
Qed.
Lemma affine_polys_ok b : forall mat, Forall (fun a => (1 <= length a <= 1 + b)%nat) mat -> exists s, affine_polys mat = Ok s /\ length s = length mat /\ Forall (ordered b) s /\
  forall k w, (k < length mat)%nat -> nth 0 w 0 = 1 -> w <> [] -> (pval (wval w) (nth k s p_zero) == inject_Z (dot (nth k mat []) w))%Q.
Proof.
  induction mat as [|a mat IH]; intros F; [exists []; repeat split; [constructor|cbn; intros; lia]|]. inversion F as [|? ? La F']; subst. destruct (IH F') as (s & E & L & O & V). destruct (affine_poly a 1 b ltac:(lia) La) as (m & Em & Om & _ & Vm).
  exists (m :: s). cbn [affine_polys]. rewrite Em. cbn [LocalModel.bind]. rewrite E. cbn [LocalModel.bind]. split; [reflexivity|]. split; [cbn; lia|]. split; [constructor; assumption|].
  intros [|k] w Hk W0 Nw; cbn [nth]; [rewrite <- (Vm w W0 Nw); change (inject_Z 1) with 1%Q; ring|]. apply V; [cbn in Hk; lia|exact W0|exact Nw].
Qed.

(** ** the first part of reduce_divs *)
Lemma unit_row d n k w : (k < n)%nat -> length w = (1 + d + n)%nat -> dot (zupd (repeat 0 (1 + d + n)) (1 + d + k) 1) w = nth (1 + d + k) w 0.
Proof. intros Hk L. rewrite dot_zupd by (rewrite repeat_length; lia). rewrite dot_repeat0, nth_repeat. ring. Qed.
Definition keeps (q q' : qp) : Prop :=
  wf_qp q' /\ q_sp q' = q_sp q /\ (q_n q' <= q_n q)%nat /\ (flat (q_d q) (q_div q) -> flat (q_d q') (q_div q')) /\ forall v r, qvalue q v r -> qvalue q' v r.
Lemma keeps_refl q : wf_qp q -> keeps q q.
Proof. intros W. split; [exact W|]. split; [reflexivity|]. split; [lia|]. split; auto. Qed.
Lemma keeps_trans q1 q2 q3 : keeps q1 q2 -> keeps q2 q3 -> keeps q1 q3.
Proof. intros (A1 & B1 & C1 & D1 & E1) (A2 & B2 & C2 & D2 & E2). split; [exact A2|]. split; [congruence|]. split; [lia|]. split; auto. Qed.
Lemma reduce_part q : wf_qp q ->
  let d := q_d q in let n := q_n q in
  let '(M, mat) := reduce_loop d (seq 0 n) (q_div q) (map (fun i => zupd (repeat 0 (1 + d + n)) (1 + d + i) 1) (seq 0 n)) in
  exists s p, affine_polys mat = Ok s /\ poly_subs (q_poly q) d n s = Ok p /\ keeps q (mkqp (q_sp q) M p).
Proof.
  intros (W & K & O) d n. set (mat0 := map (fun i => zupd (repeat 0 (1 + d + n)) (1 + d + i) 1) (seq 0 n)).
  assert (D0 : divs d n (q_div q)) by (apply divs_wf; split; assumption).
  assert (N0 : forall k, (k < n)%nat -> nth k mat0 [] = zupd (repeat 0 (1 + d + n)) (1 + d + k) 1) by (intros k Hk; apply (RdivCoal.nth_mapseq (fun i => zupd (repeat 0 (1 + d + n)) (1 + d + i) 1)); exact Hk).
  assert (S0 : shape d n mat0). { split; [unfold mat0; rewrite map_length, seq_length; reflexivity|]. intros k Hk. rewrite N0 by exact Hk. rewrite zupd_length, repeat_length. reflexivity. }
  assert (R := st_reduce_loop d n (seq 0 n) (q_div q) mat0 ltac:(apply Forall_forall; intros i Hi; apply in_seq in Hi; lia)). destruct (reduce_loop d (seq 0 n) (q_div q) mat0) as (M, mat).
  destruct (R D0 S0) as (D1 & (Lm & Sm) & Fl & V). cbn [fst snd] in *. destruct (affine_polys_ok (d + n) mat) as (s & Es & Ls & Os & Vs).
  { apply Forall_forall. intros a Ha. apply (In_nth _ _ []) in Ha as (k & Hk & <-). rewrite Sm by lia. lia. }
  destruct (subs_ok d n s (d + n) ltac:(lia) Os (q_poly q) (d + n) O ltac:(lia)) as (p & Ep & Op & Vp & _). exists s, p. split; [exact Es|]. split; [exact Ep|].
  pose proof (proj1 D1) as LM. rewrite <- LM in D1. split; [|split; [reflexivity|split; [unfold q_n; cbn [q_div]; unfold n, q_n in LM; lia|split]]].
  - destruct (proj1 (divs_wf d M) D1) as (W1 & K1). split; [exact W1|]. split; [exact K1|]. unfold q_d, q_n. cbn [q_poly q_div q_sp]. rewrite LM. exact Op.
  - exact Fl.
  - intros v r (w & Sw & Fw & Er). apply vals_sat in Sw; [|exact D0]. destruct (V w Sw) as (w' & V' & P' & E'). exists w'. split; [apply vals_sat; [exact D1|]; change (q_div (mkqp (q_sp q) M p)) with M; rewrite LM; exact V'|]. split; [change (q_d (mkqp (q_sp q) M p)) with d; unfold d in *; congruence|]. cbn [q_poly].
    rewrite Vp, Er. apply (pval_ext _ _ _ _ O). intros k Hk. destruct V' as (Lw' & W0' & _). destruct Sw as (Lw & _). unfold substituted. fold d in Hk. fold n in Hk. destruct (Nat.ltb_spec k d) as [Hl|Hl].
    + unfold wval. f_equiv. rewrite <- (nth_first w (1 + k) (1 + d)), <- (nth_first w' (1 + k) (1 + d)) by lia. rewrite P'. reflexivity.
    + destruct (Nat.leb_spec (d + n) k); [lia|]. rewrite Vs by (lia || exact W0' || (intros ->; cbn in Lw'; lia)). rewrite E' by lia. rewrite N0 by lia. rewrite unit_row by (lia || exact Lw). unfold wval. replace (1 + d + (k - d))%nat with (1 + k)%nat by lia. reflexivity.
Qed.

(** ** dropping an integer division that is not used *)
Lemma nth_map_nil (f : list Z -> list Z) (l : mat) j : (j < length l)%nat -> nth j (map f l) [] = f (nth j l []).
Proof. intros H. rewrite nth_indep with (d' := f []) by (rewrite map_length; exact H). apply map_nth. Qed.
Lemma nth_drop_z (l : list Z) i j : nth j (ldrop l i) 0 = if Nat.ltb j i then nth j l 0 else nth (S j) l 0.
Proof.
  destruct (Nat.lt_ge_cases i (length l)) as [H|H]; [apply nth_ldrop; exact H|]. unfold ldrop. rewrite firstn_all2, skipn_all2, app_nil_r by lia.
  destruct (Nat.ltb_spec j i); [reflexivity|]. rewrite !nth_overflow by lia. reflexivity.
Qed.
Lemma skip1_drop (r : list Z) i : skipn 1 (ldrop r (S i)) = ldrop (skipn 1 r) i.
Proof. destruct r as [|a r]; [unfold ldrop; destruct i; reflexivity|]. reflexivity. Qed.
Lemma nth0_drop (r : list Z) i : nth 0 (ldrop r (S i)) 0 = nth 0 r 0.
Proof. rewrite nth_drop_z. reflexivity. Qed.
Lemma firstn_drop (w : list Z) i m : (m <= i)%nat -> firstn m (ldrop w i) = firstn m w.
Proof.
  intros H. unfold ldrop. destruct (Nat.le_gt_cases (length w) i) as [L|L]; [rewrite (firstn_all2 w L), skipn_all2, app_nil_r by lia; reflexivity|]. rewrite firstn_app, firstn_firstn, firstn_length. replace (m - Nat.min i (length w))%nat with 0%nat by lia. rewrite Nat.min_l by lia. cbn [firstn]. apply app_nil_r.
Qed.
Lemma drop_div d n i M : (i < n)%nat -> divs d n M -> (forall j, (j < n)%nat -> nth (2 + d + i) (nth j M []) 0 = 0) ->
  let M' := drop_col (drop_row M i) (2 + d + i) in
  divs d (n - 1) M' /\ (flat d M -> flat d M') /\ forall w, vals d n M w -> vals d (n - 1) M' (ldrop w (1 + d + i)).
Proof.
  intros Hi (L & D) C M'. assert (LM : length M' = (n - 1)%nat) by (unfold M', drop_col, drop_row; rewrite map_length, ldrop_length by lia; lia).
  assert (N : forall j, (j < n - 1)%nat -> exists k, nth j M' [] = ldrop (nth k M []) (2 + d + i) /\ (k < n)%nat /\ k = (if Nat.ltb j i then j else S j)).
  { intros j Hj. exists (if Nat.ltb j i then j else S j). unfold M', drop_col, drop_row. rewrite nth_map_nil by (rewrite ldrop_length by lia; lia). rewrite nth_ldrop by lia. destruct (Nat.ltb j i); repeat split; lia. }
  split; [split; [exact LM|]|split].
  - intros j Hj. destruct (N j Hj) as (k & -> & Hk & Ek). destruct (D k Hk) as (Lk & Pk & Zk). split; [rewrite ldrop_length by lia; lia|]. split; [rewrite nth_drop_z; cbn [Nat.ltb Nat.leb]; exact Pk|].
    intros u Hu. rewrite nth_drop_z. destruct (Nat.ltb_spec j i); subst k; destruct (Nat.ltb_spec u (2 + d + i)); apply Zk; lia.
  - intros Fl j u Hu. destruct (Nat.lt_ge_cases j (n - 1)) as [Hj|Hj]; [|rewrite nth_overflow with (n := j) by lia; destruct u; reflexivity]. destruct (N j Hj) as (k & -> & Hk & Ek). rewrite nth_drop_z. destruct (Nat.ltb u (2 + d + i)); apply Fl; lia.
  - intros w (Lw & W0 & V). split; [rewrite ldrop_length by lia; lia|]. split; [rewrite nth_drop_z; cbn [Nat.ltb Nat.leb]; exact W0|]. intros j Hj. destruct (N j Hj) as (k & -> & Hk & Ek). rewrite nth_drop_z. change (2 + d + i)%nat with (S (1 + d + i)). rewrite skip1_drop, <- SimpDrop.dot_ldrop by (rewrite nth_skip1; apply C; exact Hk).
    rewrite nth0_drop. rewrite <- V by exact Hk. subst k. destruct (Nat.ltb_spec j i); destruct (Nat.ltb_spec (1 + d + j) (1 + d + i)); try lia; f_equal; lia.
Qed.

(** ** substitute_non_divs *)
Lemma skip_skip {A} (l : list A) : forall a b, skipn a (skipn b l) = skipn (b + a) l.
Proof. intros a b. revert l. induction b as [|b IH]; intros l; [reflexivity|]. destruct l as [|x l]; [cbn; destruct a; reflexivity|]. cbn [skipn plus]. apply IH. Qed.
Lemma combine_len m1 m2 : forall a b, length a = length b -> length (seq_combine false m1 a m2 b) = length a.
Proof. unfold seq_combine. cbn [andb]. induction a as [|x a IH]; intros [|y b] H; cbn in *; try lia. f_equal. apply IH. lia. Qed.
Lemma plug_row d n i j ri rj : (i < j)%nat -> (j < n)%nat -> rowok d n i ri -> rowok d n j rj -> nth 0 ri 0 = 1 ->
  let c := nth (2 + d + i) rj 0 in
  let X := nth 0 rj 0 :: seq_combine false 1 (firstn (1 + d + i) (skipn 1 rj)) c (firstn (1 + d + i) (skipn 1 ri)) ++ skipn (2 + d + i) rj in
  let Y := zupd X (2 + d + i) 0 in
  rowok d n j Y /\ nth (2 + d + i) Y 0 = 0 /\ nth 0 Y 0 = nth 0 rj 0 /\
  forall w, length w = (1 + d + n)%nat -> nth (1 + d + i) w 0 = dot (skipn 1 ri) w -> dot (skipn 1 Y) w = dot (skipn 1 rj) w.
Proof.
  intros Hij Hj (Li & Pi & Zi) (Lj & Pj & Zj) E1 c X Y. set (K := (1 + d + i)%nat) in *.
  set (a := firstn K (skipn 1 rj)) in *. set (b := firstn K (skipn 1 ri)) in *.
  assert (La : length a = K) by (unfold a; rewrite firstn_length, skipn_length; lia). assert (Lb : length b = K) by (unfold b; rewrite firstn_length, skipn_length; lia).
  assert (Lc : length (seq_combine false 1 a c b) = K) by (rewrite <- La; apply combine_len; lia).
  assert (NX : forall k, (2 + d + i <= k)%nat -> nth k X 0 = nth k rj 0). { intros k Hk. unfold X. destruct k as [|k]; [lia|]. cbn [nth]. rewrite app_nth2 by lia. rewrite SeqProofs.nth_skipn, Lc. f_equal. unfold K. lia. }
  assert (LX : length X = (2 + d + n)%nat) by (unfold X; cbn [length]; rewrite app_length, Lc, skipn_length; unfold K; lia).
  split; [|split; [|split]].
  - split; [unfold Y; rewrite zupd_length; exact LX|]. split; [unfold Y; change (2 + d + i)%nat with (S K); rewrite nth0_upd; exact Pj|]. intros k Hk. unfold Y. rewrite nth_zupd. destruct (Nat.eqb_spec k (2 + d + i)); [lia|]. cbn [andb]. rewrite NX by lia. apply Zj. exact Hk.
  - unfold Y. rewrite nth_zupd, Nat.eqb_refl. destruct (Nat.ltb_spec (2 + d + i) (length X)); [reflexivity|lia].
  - unfold Y. change (2 + d + i)%nat with (S K). rewrite nth0_upd. reflexivity.
  - intros w Lw Ew. unfold Y. change (2 + d + i)%nat with (1 + K)%nat. rewrite skip1_upd, dot_zupd by (rewrite skipn_length; lia). rewrite nth_skip1. change (1 + K)%nat with (2 + d + i)%nat. rewrite NX by lia. fold c.
    unfold X. change (skipn 1 (nth 0 rj 0 :: seq_combine false 1 a c b ++ skipn (2 + d + i) rj)) with (seq_combine false 1 a c b ++ skipn (2 + d + i) rj). rewrite dot_app, Lc, RdivMore.dot_combine by lia.
    assert (Ei : dot (skipn 1 ri) w = dot b (firstn K w)). { unfold b. apply dot_prefix. intros k Hk. rewrite nth_skip1. apply Zi. unfold K in Hk. lia. }
    assert (Ej : dot (skipn 1 rj) w = dot a (firstn K w) + dot (skipn (2 + d + i) rj) (skipn K w)). { rewrite <- (firstn_skipn K (skipn 1 rj)) at 1. fold a. rewrite dot_app, La, skip_skip. reflexivity. }
    rewrite Ej. fold K in Ew. rewrite Ew, Ei. ring.
Qed.
Lemma plug_in_ok d n i M : (i < n)%nat -> divs d n M -> nth 0 (nth i M []) 0 = 1 -> let M' := plug_in_div d i M in
  divs d n M' /\ nth i M' [] = nth i M [] /\ (forall j, (j < n)%nat -> nth (2 + d + i) (nth j M' []) 0 = 0) /\ (flat d M -> flat d M') /\ forall w, vals d n M w -> vals d n M' w.
Proof.
  intros Hi (L & D) E1 M'. set (f := fun j => let rj := nth j M [] in let c := nth (2 + d + i) rj 0 in if Nat.leb j i || (c =? 0) then rj else
    normalize_div (zupd (nth 0 rj 0 :: seq_combine false 1 (firstn (1 + d + i) (skipn 1 rj)) c (firstn (1 + d + i) (skipn 1 (nth i M []))) ++ skipn (2 + d + i) rj) (2 + d + i) 0)).
  assert (N : forall j, (j < n)%nat -> nth j M' [] = f j) by (intros j Hj; unfold M', plug_in_div; apply (RdivCoal.nth_mapseq f); lia).
  assert (R : forall j, (j < n)%nat -> rowok d n j (f j) /\ nth (2 + d + i) (f j) 0 = 0 /\ forall w, vals d n M w -> dot (skipn 1 (f j)) w / nth 0 (f j) 0 = dot (skipn 1 (nth j M [])) w / nth 0 (nth j M []) 0).
  { intros j Hj. unfold f. cbv zeta. pose proof (D j Hj) as Rj. destruct (Nat.leb_spec j i) as [Hl|Hl]; cbn [orb].
    - split; [exact Rj|]. split; [apply Rj; lia|]. reflexivity.
    - destruct (Z.eqb_spec (nth (2 + d + i) (nth j M []) 0) 0) as [Ec|Ec]; [split; [exact Rj|]; split; [exact Ec|reflexivity]|].
      destruct (plug_row d n i j (nth i M []) (nth j M []) Hl Hj (D i Hi) Rj E1) as (RY & ZY & DY & VY). cbv zeta in *. set (Y := zupd _ _ _) in *. destruct (normalize_div_ok d n j Y RY) as (RN & ZN & VN).
      split; [exact RN|]. split; [apply ZN; [lia|exact ZY]|]. intros w (Lw & W0 & V). rewrite VN; [|exact W0|intros ->; cbn in Lw; lia]. rewrite DY. f_equal. apply VY; [exact Lw|]. rewrite V by exact Hi. rewrite E1, Z.div_1_r. reflexivity. }
  split; [split; [unfold M', plug_in_div; rewrite map_length, seq_length; exact L|intros j Hj; rewrite N by exact Hj; apply R; exact Hj]|].
  split; [rewrite N by exact Hi; unfold f; cbv zeta; rewrite Nat.leb_refl; reflexivity|]. split; [intros j Hj; rewrite N by exact Hj; apply R; exact Hj|]. split.
  - intros Fl j k Hk. destruct (Nat.lt_ge_cases j n) as [Hj|Hj]; [|rewrite nth_overflow with (n := j) by (unfold M', plug_in_div; rewrite map_length, seq_length; lia); destruct k; reflexivity].
    rewrite N by exact Hj. unfold f. cbv zeta. rewrite (Fl j (2 + d + i)%nat) by lia. rewrite Z.eqb_refl, orb_true_r. apply Fl. exact Hk.
  - intros w Vw. pose proof Vw as (Lw & W0 & V). split; [exact Lw|]. split; [exact W0|]. intros j Hj. rewrite N by exact Hj. destruct (R j Hj) as (_ & _ & H). rewrite H by exact Vw. apply V. exact Hj.
Qed.
Lemma non_divs_step q i : wf_qp q -> (i < q_n q)%nat -> nth 0 (nth i (q_div q) []) 0 = 1 -> let M := plug_in_div (q_d q) i (q_div q) in
  exists s q', from_affine (skipn 1 (nth i M [])) (nth 0 (nth i M []) 0) = Ok s /\ substitute_div (mkqp (q_sp q) M (q_poly q)) i s = Ok q' /\ keeps q q'.
Proof.
  intros (W & K & O) Hi E1 M. set (d := q_d q) in *. set (n := q_n q) in *. assert (D0 : divs d n (q_div q)) by (apply divs_wf; split; assumption).
  destruct (plug_in_ok d n i (q_div q) Hi D0 E1) as (D1 & Ei & Cz & Fl & V1). fold M in D1, Ei, Cz, Fl, V1. rewrite Ei, E1. destruct (proj2 D0 i Hi) as (Li & Pi & Zi). set (ri := nth i (q_div q) []) in *.
  destruct (affine_poly (skipn 1 ri) 1 (d + n) ltac:(lia) ltac:(rewrite skipn_length; lia)) as (s & Es & Os & Vs & Vw). exists s.
  destruct (subs_ok (d + i) 1 [s] (d + n) eq_refl ltac:(repeat constructor; exact Os) (q_poly q) (d + n) O ltac:(lia)) as (p1 & Ep1 & Op1 & Vp1 & _).
  set (r := (seq 0 (d + i) ++ [0%nat] ++ seq (d + i) (n - i - 1))%list).
  assert (LM : length M = n) by apply D1.
  assert (Lr : length r = (d + n)%nat) by (unfold r; rewrite !app_length, !seq_length; cbn [length]; lia).
  assert (Nr : forall v, nth v r 0%nat = if Nat.ltb v (d + i) then v else if Nat.eqb v (d + i) then 0%nat else if Nat.ltb v (d + n) then (v - 1)%nat else 0%nat).
  { intros v. unfold r. destruct (Nat.ltb_spec v (d + i)); [rewrite app_nth1 by (rewrite seq_length; lia); rewrite seq_nth by lia; reflexivity|]. rewrite app_nth2 by (rewrite seq_length; lia). rewrite seq_length. destruct (Nat.eqb_spec v (d + i)) as [->|]; [rewrite Nat.sub_diag; reflexivity|].
    rewrite app_nth2 by (cbn [length]; lia). cbn [length]. destruct (Nat.ltb_spec v (d + n)); [rewrite seq_nth by lia; lia|]. apply nth_overflow. rewrite seq_length. lia. }
  (* the value of the substituted polynomial does not depend on the dropped variable *)
  assert (Ind : forall x y, (forall v, (v < d + n)%nat -> v <> (d + i)%nat -> x v == y v)%Q -> (pval x p1 == pval y p1)%Q).
  { intros x y H. rewrite !Vp1. apply (pval_ext _ _ _ _ O). intros v Hv. unfold substituted. fold d in Hv. fold n in Hv. destruct (Nat.ltb_spec v (d + i)); [apply H; lia|]. destruct (Nat.leb_spec (d + i + 1) v); [apply H; lia|].
    replace (v - (d + i))%nat with 0%nat by lia. cbn [nth]. assert (A : forall z, (pval z s == inject_Z (nth 0 (skipn 1 ri) 0%Z) + affv z 0 (tl (skipn 1 ri)))%Q) by (intros z; rewrite <- Vs; change (inject_Z 1) with 1%Q; ring). rewrite !A. f_equiv. apply affv_agree. intros k Hk.
    assert (Ek : nth k (tl (skipn 1 ri)) 0 = nth (2 + k) ri 0) by (destruct ri as [|? [|? ?]]; [destruct k; reflexivity|destruct k; reflexivity|reflexivity]). rewrite Ek. destruct (Nat.lt_ge_cases k (d + i)); [right; apply H; cbn; lia|left; apply Zi; lia]. }
  assert (Hex : exists p2, reorder p1 r = Ok p2 /\ ordered (d + (n - 1)) p2 /\ forall x, (pval x p2 == pval (renamed x r) p1)%Q).
  { destruct (Nat.eq_dec (d + (n - 1)) 0) as [Z0|Nz].
    - (* the only variable has been replaced by a constant *)
      destruct p1 as [c0 c1|u l]; [exists (Cst c0 c1); split; [reflexivity|]; split; [exact Op1|reflexivity]|]. exfalso. assert (Oc : occurs 0 (Rec u l)). { left. apply ordered_rec in Op1. lia. }
      destruct (occurs_effect _ _ _ Op1 Oc) as (x & y & Hxy & Ne). apply Ne. apply Ind. intros v Hv Nv. exfalso. lia.
    - destruct (reorder_ok r (d + (n - 1)) p1 (d + n) Op1 ltac:(lia)) as (p2 & A & B & C & _); [|exists p2; auto]. apply Forall_forall. intros v Hv. apply (In_nth _ _ 0%nat) in Hv as (k & Hk & <-). rewrite Nr. destruct (Nat.ltb_spec k (d + i)); [lia|]. destruct (Nat.eqb_spec k (d + i)); [lia|]. destruct (Nat.ltb_spec k (d + n)); lia. }
  destruct Hex as (p2 & Ep2 & Op2 & Vp2). set (M' := drop_col (drop_row M i) (2 + d + i)). exists (mkqp (q_sp q) M' p2). split; [exact Es|]. split.
  { unfold substitute_div, q_d, q_n. cbn [q_sp q_poly q_div]. fold (q_d q). fold d. rewrite Ep1. cbn [LocalModel.bind]. rewrite LM. fold r. rewrite Ep2. reflexivity. }
  destruct (drop_div d n i M Hi D1 Cz) as (D2 & Fl2 & V2). fold M' in D2, Fl2, V2. pose proof (proj1 D2) as LM'. split; [|split; [reflexivity|split; [unfold q_n at 1; cbn [q_div]; fold n; lia|split; [intros F; apply Fl2, Fl; exact F|]]]].
  - rewrite <- LM' in D2. destruct (proj1 (divs_wf d M') D2) as (W2 & K2). split; [exact W2|]. split; [exact K2|]. unfold q_d, q_n. cbn [q_poly q_div q_sp]. rewrite LM'. exact Op2.
  - intros v x (w & Sw & Fw & Ex). apply vals_sat in Sw; [|exact D0]. fold n in Sw. exists (ldrop w (1 + d + i)). split; [rewrite <- LM' in D2; apply vals_sat; [exact D2|]; change (q_div (mkqp (q_sp q) M' p2)) with M'; rewrite LM'; apply V2, V1; exact Sw|]. split; [change (q_d (mkqp (q_sp q) M' p2)) with d; rewrite firstn_drop by lia; exact Fw|].
    cbn [q_poly]. rewrite Ex, Vp2. rewrite (Ind _ (wval w)).
    + rewrite Vp1. apply (pval_ext _ _ _ _ O). intros u Hu. unfold substituted. destruct (Nat.ltb_spec u (d + i)); [reflexivity|]. destruct (Nat.leb_spec (d + i + 1) u); [reflexivity|]. replace (u - (d + i))%nat with 0%nat by lia. cbn [nth]. destruct Sw as (Lw & W0 & V). specialize (Vw w W0 ltac:(intros ->; cbn in Lw; lia)). change (inject_Z 1) with 1%Q in Vw. rewrite Qmult_1_l in Vw. rewrite Vw. unfold wval. f_equiv. replace (1 + u)%nat with (1 + d + i)%nat by lia. rewrite V by exact Hi. fold ri. rewrite E1, Z.div_1_r. reflexivity.
    + intros u Hu Nu. unfold renamed, wval. rewrite Nr, nth_drop_z. destruct (Nat.ltb_spec u (d + i)); [destruct (Nat.ltb_spec (1 + u) (1 + d + i)); [reflexivity|lia]|]. destruct (Nat.eqb_spec u (d + i)); [lia|]. destruct (Nat.ltb_spec u (d + n)); [|lia]. destruct (Nat.ltb_spec (1 + (u - 1)) (1 + d + i)); [lia|]. replace (S (1 + (u - 1))) with (1 + u)%nat by lia. reflexivity.
Qed.
Lemma non_divs_ok : forall fuel i q, wf_qp q -> exists q', substitute_non_divs fuel i q = Ok q' /\ keeps q q'.
Proof.
  induction fuel as [|f IH]; intros i q W; [exists q; split; [reflexivity|apply keeps_refl; exact W]|]. cbn [substitute_non_divs]. destruct (Nat.leb_spec (q_n q) i) as [H|H]; [exists q; split; [reflexivity|apply keeps_refl; exact W]|].
  destruct (Z.eqb_spec (nth 0 (nth i (q_div q) []) 0) 1) as [E|E]; cbn [negb]; [|apply IH; exact W]. destruct (non_divs_step q i W H E) as (s & q' & A & B & C). cbv zeta in *. rewrite A. cbn [LocalModel.bind]. rewrite B. cbn [LocalModel.bind].
  destruct (IH i q' (proj1 C)) as (q'' & A' & C'). exists q''. split; [exact A'|]. eapply keeps_trans; eassumption.
Qed.
