(** drop_more_redundant_divs keeps the points. *)
From Coq Require Import ZArith List Bool Arith Lia Permutation Znumtheory.
From Verif Require Import SeqModel SeqSpec SeqProofs MatModel BMapModel BMapSpec BMapSem BMapLists BMapNorm BMapGauss BMapGauss2 BMapOrder BDupModel BDupProofs BElimModel BElimSpec BElimSort BElimCols
  BElimProofs BElimFM BElimVars LocalModel SimpModel SimpSpec SimpBase SimpDrop SimpDivs SimpShift SimpDups SimpIneq SimpFinal SetBase SetLift RdivModel RdivSpec RdivElim RdivStep.
Import ListNotations.
Open Scope Z_scope.

(** ** an integer value between all pairs of bounds *)
Lemma any_pos (c : list Z -> Z) : forall l, (exists r, In r l /\ 0 < c r) \/ (forall r, In r l -> c r <= 0).
Proof. induction l as [|y l IH]; [right; intros r []|]. destruct (Z_lt_dec 0 (c y)); [left; exists y; cbn; auto|]. destruct IH as [(r & H1 & H2)|H]; [left; exists r; cbn; auto|]. right. intros r [<-|Hr]; [lia|auto]. Qed.
(** a largest element with respect to a total preorder, among the rows with a positive coefficient *)
Lemma largest (c : list Z -> Z) (le : list Z -> list Z -> Prop) : (forall r s, 0 < c r -> 0 < c s -> le r s \/ le s r) -> (forall r s u, 0 < c r -> 0 < c s -> 0 < c u -> le r s -> le s u -> le r u) ->
  forall l, (exists r, In r l /\ 0 < c r) -> exists r, In r l /\ 0 < c r /\ forall s, In s l -> 0 < c s -> le s r.
Proof.
  intros Tot Tr. induction l as [|x l IH]; [intros (r & [] & _)|]. intros E. destruct (any_pos c l) as [D|D].
  - destruct (IH D) as (r & Hr & Cr & M). destruct (Z_lt_dec 0 (c x)) as [Cx|Cx].
    + destruct (Tot x r Cx Cr) as [L|L].
      * exists r. split; [right; exact Hr|]. split; [exact Cr|]. intros s [<-|Hs] Cs; auto.
      * exists x. split; [left; reflexivity|]. split; [exact Cx|]. assert (le x x) by (destruct (Tot x x Cx Cx); assumption). intros s [<-|Hs] Cs; [assumption|]. apply (Tr s r x); auto.
    + exists r. split; [right; exact Hr|]. split; [exact Cr|]. intros s [<-|Hs] Cs; [lia|auto].
  - destruct E as (r & [<-|Hr] & Cr); [|specialize (D r Hr); lia]. exists x. split; [left; reflexivity|]. split; [exact Cr|]. assert (le x x) by (destruct (Tot x x Cr Cr); assumption). intros s [<-|Hs] Cs; [assumption|]. specialize (D s Hs). lia.
Qed.
Lemma pairs_exact b c : (c < total b)%nat ->
  (forall v, length v = (1 + total b)%nat -> hd 0 v = 1 -> Forall (zero_on v) (b_eq b) -> (forall r, In r (b_ineq b) -> coef c r = 0 -> 0 <= dot r v) ->
     (forall r s, In r (b_ineq b) -> In s (b_ineq b) -> 0 < coef c r -> coef c s < 0 -> 0 <= coef c r * dot s v - coef c s * dot r v) ->
     forall r s, In r (b_ineq b) -> In s (b_ineq b) -> 0 < coef c r -> coef c s < 0 -> exists t, 0 <= dot r (zupd v (1 + c) t) /\ 0 <= dot s (zupd v (1 + c) t)) ->
  exactly b c.
Proof.
  intros Hc H v Lv Hv Se Z0 FM. specialize (H v Lv Hv Se Z0 FM). set (f := fun r => dot r (zupd v (1 + c) 0)). assert (V : forall r t, dot r (zupd v (1 + c) t) = f r + t * coef c r) by (intros r t; unfold f; rewrite !dot_upd by lia; unfold coef; ring).
  assert (ZR : forall r t, In r (b_ineq b) -> coef c r = 0 -> 0 <= dot r (zupd v (1 + c) t)) by (intros r t Hr C; rewrite upd_zero by (try exact C; lia); apply Z0; assumption).
  destruct (any_pos (coef c) (b_ineq b)) as [D|D].
  - destruct (largest (coef c) (fun r s => - (f r / coef c r) <= - (f s / coef c s)) ltac:(cbn beta; intros; lia) ltac:(cbn beta; intros; lia) (b_ineq b) D) as (r & Hr & Cr & M). exists (- (f r / coef c r)). apply Forall_forall. intros s Hs. unfold nonneg_on.
    destruct (Z.lt_trichotomy (coef c s) 0) as [C|[C|C]]; [|apply ZR; assumption|].
    + destruct (H r s Hr Hs Cr C) as (t & T1 & T2). rewrite V in *. pose proof (Z.div_mod (f r) (coef c r) ltac:(lia)). pose proof (Z.mod_pos_bound (f r) (coef c r) Cr). assert (- (f r / coef c r) <= t) by nia. nia.
    + specialize (M s Hs C). rewrite V. pose proof (Z.div_mod (f s) (coef c s) ltac:(lia)). pose proof (Z.mod_pos_bound (f s) (coef c s) C). nia.
  - destruct (large_rows (-1) (1 + c) v ltac:(auto) ltac:(lia) (b_ineq b)) as [t0 T]; [apply Forall_forall; intros r Hr N; specialize (D r Hr); unfold coef in D; lia|]. exists (-1 * t0). apply Forall_forall. intros r Hr. unfold nonneg_on. destruct (Z.eq_dec (coef c r) 0) as [C|C]; [apply ZR; assumption|]. apply T; [lia|exact Hr|exact C].
Qed.
(** the values that are left can be extended to a rational point *)
Lemma rational_point b c v r0 : (c < total b)%nat -> length v = (1 + total b)%nat -> hd 0 v = 1 -> Forall (zero_on v) (b_eq b) -> Forall (zrow c) (b_eq b) -> (forall r, In r (b_ineq b) -> coef c r = 0 -> 0 <= dot r v) ->
  (forall r s, In r (b_ineq b) -> In s (b_ineq b) -> 0 < coef c r -> coef c s < 0 -> 0 <= coef c r * dot s v - coef c s * dot r v) -> In r0 (b_ineq b) -> 0 < coef c r0 ->
  exists k t, 0 < k /\ system (b_eq b) (b_ineq b) (zupd (scale k v) (1 + c) t).
Proof.
  intros Hc Lv Hv Se Ze Z0 FM H0 C0. set (x := nth (1 + c) v 0). set (f := fun r => dot r v - x * coef c r). assert (V : forall r k t, dot r (zupd (scale k v) (1 + c) t) = k * f r + t * coef c r). { intros r k t. rewrite dot_upd by (rewrite scale_length; lia). rewrite dot_scale, nth_scale. unfold f, coef, x. ring. }
  destruct (largest (coef c) (fun r s => coef c r * f s <= coef c s * f r)) with (l := b_ineq b) as (r & Hr & Cr & M).
  - cbn beta. intros; lia.
  - cbn beta. intros r s u Cr Cs Cu A B. assert (coef c s * (coef c r * f u) <= coef c s * (coef c u * f r)) by nia. nia.
  - exists r0. auto.
  - exists (coef c r), (- f r). split; [exact Cr|]. split; apply Forall_forall; intros s Hs.
    + unfold zero_on. rewrite V. assert (Zs : coef c s = 0) by (apply (proj1 (Forall_forall _ _) Ze s Hs)). unfold f. rewrite Zs. pose proof (proj1 (Forall_forall _ _) Se s Hs) as S. unfold zero_on in S. rewrite S. ring.
    + unfold nonneg_on. rewrite V. destruct (Z.lt_trichotomy (coef c s) 0) as [C|[C|C]].
      * specialize (FM r s Hr Hs Cr C). unfold f. nia.
      * specialize (Z0 s Hs C). unfold f. rewrite C. nia.
      * specialize (M s Hs C). nia.
Qed.

(** ** int_between_bounds *)
Lemma between (nl nu fl fu g el eu : Z) : 0 < g -> 0 < fl -> 0 < fu -> nl = g * fl -> nu = g * fu -> 0 <= fl * eu + fu * el - (g * fl * fu - fl - fu + 1) ->
  exists t, 0 <= el + nl * t /\ 0 <= eu - nu * t.
Proof.
  intros Hg Hl Hu -> -> H. exists (- (el / (g * fl))). assert (P : 0 < g * fl) by nia. pose proof (Z.div_mod el (g * fl) ltac:(lia)) as DM. pose proof (Z.mod_pos_bound el (g * fl) P) as MB. set (q := el / (g * fl)) in *. set (m := el mod (g * fl)) in *. split; [lia|].
  destruct (Z_le_dec 0 (eu - g * fu * - q)) as [L|L]; [exact L|]. exfalso.
  assert (A : eu + g * fu * q <= -1) by lia. assert (B : fl * (eu + g * fu * q) <= fl * -1) by (apply Z.mul_le_mono_nonneg_l; lia). assert (C : fu * m <= fu * (g * fl - 1)) by (apply Z.mul_le_mono_nonneg_l; lia).
  assert (D : fu * el = fu * (g * fl * q) + fu * m) by (rewrite DM; ring). nia.
Qed.
Lemma dot_combine al m1 l1 m2 l2 v : length l1 = length l2 -> dot (seq_combine al m1 l1 m2 l2) v = m1 * dot l1 v + m2 * dot l2 v.
Proof. intros L. apply combination_dot; [exact L|]. apply combine_ok. exact L. Qed.
Lemma dot_divided g l v : 0 < g -> (forall x, In x l -> (g | x)) -> dot l v = g * dot (seq_scale_down l g) v.
Proof.
  intros Hg. revert v. induction l as [|x l IH]; intros v H; [change (dot [] v) with 0; destruct v; cbn; lia|]. destruct v as [|y v]; [cbn; lia|]. cbn [seq_scale_down map]. change (dot (x :: l) (y :: v)) with (x * y + dot l v). change (dot (divexact x g :: map (fun x => divexact x g) l) (y :: v)) with (divexact x g * y + dot (seq_scale_down l g) v).
  rewrite (IH v) by (intros z Hz; apply H; right; exact Hz). destruct (H x (or_introl eq_refl)) as [q ->]. unfold divexact. rewrite Z.div_mul by lia. ring.
Qed.

Lemma dot_zeros : forall l v, (forall x, In x l -> (0 | x)) -> dot l v = 0.
Proof.
  induction l as [|x l IH]; intros w G1; [destruct w; reflexivity|]. destruct w as [|y w]; [reflexivity|]. change (dot (x :: l) (y :: w)) with (x * y + dot l w). rewrite IH by (intros z Hz; apply G1; right; exact Hz). destruct (G1 x (or_introl eq_refl)) as [q Q]. lia.
Qed.

Section More.
Variable hash : list Z -> nat.
Variable no_redundant : bmap -> bool.
Variable tab : bmap -> bool * list kind.
Variable sfuel : nat.
Variable tab_empty : bmap -> bool.
Variable tab_min : bmap -> list Z -> option Z.
Hypothesis TAB : sound_tab tab.
Hypothesis TE : sound_empty tab_empty.
Hypothesis TM : sound_min tab_min.

Lemma test_ok b c r v r0 : wf b -> b_empty b = false -> length r = (1 + total b)%nat -> test_ineq_is_satisfied tab_empty tab_min b r = true -> nth (1 + c) r 0 = 0 ->
  (c < total b)%nat -> length v = (1 + total b)%nat -> hd 0 v = 1 -> Forall (zero_on v) (b_eq b) -> Forall (zrow c) (b_eq b) -> (forall r, In r (b_ineq b) -> coef c r = 0 -> 0 <= dot r v) ->
  (forall r s, In r (b_ineq b) -> In s (b_ineq b) -> 0 < coef c r -> coef c s < 0 -> 0 <= coef c r * dot s v - coef c s * dot r v) -> In r0 (b_ineq b) -> 0 < coef c r0 -> 0 <= dot r v.
Proof.
  intros W Ne Lr T Zr Hc Lv Hv Se Ze Z0 FM H0 C0. destruct (rational_point b c v r0 Hc Lv Hv Se Ze Z0 FM H0 C0) as (k & t & Hk & S). set (w := zupd (scale k v) (1 + c) t) in *. unfold test_ineq_is_satisfied in T. destruct (tab_empty b); [discriminate T|]. destruct (tab_min b r) as [g|] eqn:EM; [|discriminate T]. apply Z.leb_le in T.
  assert (Hw : hd 0 w = k). { unfold w. cbn [Nat.add]. rewrite hd_zupd_S. destruct v as [|x v]; [discriminate Hv|]. cbn [hd] in Hv. subst x. cbn. ring. }
  pose proof (TM b r g W Ne Lr EM w ltac:(unfold w; rewrite zupd_length, scale_length; exact Lv) ltac:(lia) S) as B. rewrite Hw in B. unfold w in B. rewrite dot_upd in B by (rewrite scale_length; lia). rewrite Zr, dot_scale in B. nia.
Qed.
Lemma int_between_ok b i l u v : wf b -> b_empty b = false -> (i < ndiv b)%nat -> (l < length (b_ineq b))%nat -> (u < length (b_ineq b))%nat -> 0 < icoef b i l -> icoef b i u < 0 ->
  let c := (nvar b + i)%nat in
  length v = (1 + total b)%nat -> hd 0 v = 1 -> Forall (zero_on v) (b_eq b) -> Forall (zrow c) (b_eq b) -> (forall r, In r (b_ineq b) -> coef c r = 0 -> 0 <= dot r v) ->
  (forall r s, In r (b_ineq b) -> In s (b_ineq b) -> 0 < coef c r -> coef c s < 0 -> 0 <= coef c r * dot s v - coef c s * dot r v) ->
  fst (int_between_bounds tab_empty tab_min b i l u) = true ->
  exists t, 0 <= dot (nth l (b_ineq b) []) (zupd v (1 + c) t) /\ 0 <= dot (nth u (b_ineq b) []) (zupd v (1 + c) t).
Proof.
  intros Wb Ne Hi Hl Hu Cl Cu c Lv Hv Se Ze Z0 FM. pose proof Wb as (_ & Wi & _). assert (TT : total b = (nvar b + ndiv b)%nat) by reflexivity. assert (Hc : (c < total b)%nat) by (unfold c; lia).
  pose proof (FM _ _ (nth_In _ [] Hl) (nth_In _ [] Hu) Cl Cu) as F. pose proof (nth_In _ [] Hl : In (nth l (b_ineq b) []) _) as Il. pose proof (rows_nth _ _ l Wi Hl) as Ll. pose proof (rows_nth _ _ u Wi Hu) as Lu.
  assert (TST : forall r, length r = (1 + total b)%nat -> nth (1 + c) r 0 = 0 -> test_ineq_is_satisfied tab_empty tab_min b r = true -> 0 <= dot r v) by (intros r Lr Zr T; apply (test_ok b c r v (nth l (b_ineq b) [])); auto).
  unfold int_between_bounds, icoef in *. change (dpos b i) with (1 + c)%nat in *. change (coef c (nth l (b_ineq b) [])) with (nth (1 + c) (nth l (b_ineq b) []) 0) in F. change (coef c (nth u (b_ineq b) [])) with (nth (1 + c) (nth u (b_ineq b) []) 0) in F.
  set (rl := nth l (b_ineq b) []) in *. set (ru := nth u (b_ineq b) []) in *. set (nl := nth (1 + c) rl 0) in *. set (nu := nth (1 + c) ru 0) in *. set (g := Z.gcd nl nu). set (fl := divexact nl g). set (fu := - divexact nu g).
  assert (Hg : 0 < g) by (pose proof (Z.gcd_nonneg nl nu); assert (g <> 0) by (intros X; apply Z.gcd_eq_0_l in X; lia); unfold g in *; lia).
  assert (El : nl = g * fl). { destruct (Z.gcd_divide_l nl nu) as [q Q]. fold g in Q. unfold fl, divexact. rewrite Q at 2. rewrite Z.div_mul by lia. lia. }
  assert (Eu : - nu = g * fu). { destruct (Z.gcd_divide_r nl nu) as [q Q]. fold g in Q. unfold fu, divexact. rewrite Q at 2. rewrite Z.div_mul by lia. lia. }
  assert (Pl : 0 < fl) by nia. assert (Pu : 0 < fu) by nia. set (R := seq_combine false fl ru fu rl). assert (LR : length R = (1 + total b)%nat) by (unfold R; rewrite seq_combine_eq by lia; rewrite map2_length; lia).
  assert (ZR : nth (1 + c) R 0 = 0). { destruct (combine_ok false fl ru fu rl ltac:(lia)) as [_ K]. fold R in K. rewrite K by lia. fold nl nu. rewrite El. replace nu with (- (g * fu)) by lia. ring. }
  assert (DR : dot R v = fl * dot ru v + fu * dot rl v) by (apply dot_combine; lia). assert (FV : 0 <= dot R v) by (rewrite DR; assert (g * (fl * dot ru v + fu * dot rl v) = nl * dot ru v - nu * dot rl v) by (rewrite El; replace nu with (- (g * fu)) by lia; ring); nia).
  destruct R as [|r0 R'] eqn:ER; [discriminate LR|]. cbn [hd tl]. set (K := g * fl * fu - fl - fu + 1).
  assert (DV : forall x, dot (x :: R') v = x + dot R' (tl v)). { intros x. rewrite dot_hd_tl by (exact Hv || discriminate). reflexivity. }
  assert (GO : 0 <= dot R' (tl v) + (r0 - K) -> exists t, 0 <= dot rl (zupd v (1 + c) t) /\ 0 <= dot ru (zupd v (1 + c) t)).
  { intros H. set (x := nth (1 + c) v 0). destruct (between nl (- nu) fl fu g (dot rl v - x * nl) (dot ru v - x * nu) Hg Pl Pu El Eu) as (t & T1 & T2).
    - fold K. rewrite DV in DR. assert (fl * (dot ru v - x * nu) + fu * (dot rl v - x * nl) = fl * dot ru v + fu * dot rl v) by (rewrite El; replace nu with (- (g * fu)) by lia; ring). lia.
    - exists t. rewrite !dot_upd by lia. fold nl nu x. split; lia. }
  rewrite DV in FV, DR. pose proof (seq_gcd_ok R') as (G0 & G1 & G2). set (g' := seq_gcd R') in *. destruct (Z.eqb_spec g' 0) as [E0|E0].
  - cbn [fst]. intros H. apply Z.leb_le in H. apply GO. assert (Z' : dot R' (tl v) = 0) by (apply dot_zeros; rewrite <- E0; exact G1).
    lia.
  - destruct (Z.eqb_spec g' 1) as [E1|E1].
    + cbn [fst]. intros H. apply GO. specialize (TST (r0 - K :: R') LR ZR H). rewrite DV in TST. lia.
    + assert (P' : 0 < g') by lia. pose proof (dot_divided g' R' (tl v) P' G1) as DD. set (X := dot (seq_scale_down R' g') (tl v)) in *. unfold fdiv_q. pose proof (Z.div_mod (r0 - K) g' ltac:(lia)) as M1. pose proof (Z.mod_pos_bound (r0 - K) g' P') as B1. pose proof (Z.div_mod r0 g' ltac:(lia)) as M2. pose proof (Z.mod_pos_bound r0 g' P') as B2.
      assert (FIN : 0 <= (r0 - K) / g' + X -> exists t, 0 <= dot rl (zupd v (1 + c) t) /\ 0 <= dot ru (zupd v (1 + c) t)) by (intros H; apply GO; nia).
      destruct (Z.eqb_spec ((r0 - K) / g') (r0 / g')) as [EQ|EQ]; cbn [fst]; intros H; apply FIN.
      * rewrite EQ. assert (- 1 < r0 / g' + X) by nia. lia.
      * assert (Zs : nth (1 + c) ((r0 - K) / g' :: seq_scale_down R' g') 0 = 0) by (cbn [Nat.add nth] in *; apply scale_down_0; exact ZR). assert (Ls : length ((r0 - K) / g' :: seq_scale_down R' g') = (1 + total b)%nat) by (cbn [length] in LR |- *; unfold seq_scale_down; rewrite map_length; exact LR). specialize (TST _ Ls Zs H). rewrite dot_hd_tl in TST by (exact Hv || discriminate). exact TST.
Qed.

(** ** the loops *)
Lemma upper_loop_ok b i l : forall us used, fst (upper_loop tab_empty tab_min b i l us used) = true -> forall u, In u us -> icoef b i u < 0 -> icoef b i u = -1 \/ fst (int_between_bounds tab_empty tab_min b i l u) = true.
Proof.
  induction us as [|x us IH]; intros used H u; [intros []|]. cbn [upper_loop] in H. intros [<-|Hu] Cu.
  - destruct (Z.ltb_spec (icoef b i x) 0); [|lia]. cbn [negb] in H. destruct (Z.eqb_spec (icoef b i x) (-1)) as [E|_]; [left; exact E|]. right. destruct (int_between_bounds tab_empty tab_min b i l x) as [has t]. destruct (_ && _); [discriminate H|]. destruct has; [reflexivity|discriminate H].
  - destruct (negb _); [apply (IH _ H u Hu Cu)|]. destruct (_ =? _); [apply (IH _ H u Hu Cu)|]. destruct (int_between_bounds tab_empty tab_min b i l x) as [has t]. destruct (_ && _); [discriminate H|]. destruct has; [|discriminate H]. apply (IH _ H u Hu Cu).
Qed.
Lemma lower_loop_ok b i : forall ls used, fst (lower_loop tab_empty tab_min b i ls used) = true -> forall l u, In l ls -> (u < length (b_ineq b))%nat -> 0 < icoef b i l -> icoef b i u < 0 ->
  icoef b i l = 1 \/ icoef b i u = -1 \/ fst (int_between_bounds tab_empty tab_min b i l u) = true.
Proof.
  induction ls as [|x ls IH]; intros used H l u; [intros []|]. cbn [lower_loop] in H. intros Hl Hu Cl Cu. destruct (Z.ltb_spec 0 (icoef b i x)) as [P|P]; cbn [negb] in H.
  - destruct (Z.eqb_spec (icoef b i x) 1) as [E|E]; [destruct Hl as [<-|Hl]; [left; exact E|apply (IH _ H); assumption]|]. destruct (upper_loop tab_empty tab_min b i x (seq 0 (length (b_ineq b))) used) as [ok used'] eqn:EU. destruct ok; [|discriminate H]. destruct Hl as [<-|Hl]; [|apply (IH _ H); assumption].
    right. apply (upper_loop_ok b i x (seq 0 (length (b_ineq b))) used); [rewrite EU; reflexivity|apply in_seq; lia|exact Cu].
  - destruct Hl as [<-|Hl]; [lia|]. apply (IH _ H); assumption.
Qed.
Lemma best_pair_ok pairs i : best_pair pairs = Some i -> nth i pairs 0%nat <> 0%nat.
Proof.
  unfold best_pair. assert (K : forall l acc, (forall k, acc = Some k -> nth k pairs 0%nat <> 0%nat) -> forall i, fold_left (fun best i => if Nat.eqb (nth i pairs 0%nat) 0 then best else match best with Some k => if Nat.leb (nth k pairs 0%nat) (nth i pairs 0%nat) then best else Some i | None => Some i end) l acc = Some i -> nth i pairs 0%nat <> 0%nat).
  { induction l as [|x l IH]; intros acc A j; cbn [fold_left]; [apply A|]. apply IH. intros k. destruct (Nat.eqb_spec (nth x pairs 0%nat) 0) as [E|E]; [apply A|]. destruct acc as [a|]; [destruct (Nat.leb _ _); [apply A|]|]; intros [= <-]; exact E. }
  apply K. intros k X. discriminate X.
Qed.
Lemma loop_exact b i used : wf b -> b_empty b = false -> (i < ndiv b)%nat -> free_of b i -> fst (lower_loop tab_empty tab_min b i (seq 0 (length (b_ineq b))) used) = true -> exactly b (nvar b + i).
Proof.
  intros W Ne Hi Fr H. assert (TT : total b = (nvar b + ndiv b)%nat) by reflexivity. apply pairs_exact; [lia|]. intros v Lv Hv Se Z0 FM r s Hr Hs Cr Cs. pose proof (FM r s Hr Hs Cr Cs) as F. set (c := (nvar b + i)%nat) in *.
  apply (In_nth _ _ []) in Hr as (l & Hl & El). apply (In_nth _ _ []) in Hs as (u & Hu & Eu). assert (Il : icoef b i l = coef c r) by (unfold icoef; rewrite El; reflexivity). assert (Iu : icoef b i u = coef c s) by (unfold icoef; rewrite Eu; reflexivity).
  destruct (lower_loop_ok b i _ used H l u ltac:(apply in_seq; lia) Hu ltac:(lia) ltac:(lia)) as [E|[E|E]].
  - exists (nth (1 + c) v 0 - dot r v). rewrite !dot_upd by lia. fold (coef c r) (coef c s). rewrite Il in E. rewrite E in *. nia.
  - exists (nth (1 + c) v 0 + dot s v). rewrite !dot_upd by lia. fold (coef c r) (coef c s). rewrite Iu in E. rewrite E in *. nia.
  - destruct (int_between_ok b i l u v W Ne Hi Hl Hu ltac:(lia) ltac:(lia) Lv Hv Se Fr Z0 FM E) as (t & T1 & T2). exists t. rewrite El in T1. rewrite Eu in T2. auto.
Qed.
Definition good_pairs (b : bmap) (pairs : list nat) : Prop := forall i, nth i pairs 0%nat <> 0%nat -> (i < ndiv b)%nat /\ unused b i /\ free_of b i.
Lemma good_pairs_0 b pairs i : good_pairs b pairs -> good_pairs b (lset pairs i 0%nat).
Proof. intros H k Hk. apply H. intros X. apply Hk. clear - X. revert i k X. induction pairs as [|x p IH]; intros [|i] [|k] X; cbn in *; auto. Qed.
Lemma more_loop_ok b : wf b -> b_empty b = false -> forall n pairs used m, good_pairs b pairs -> more_loop tab_empty tab_min n b pairs used = Ok m ->
  match m with Remove i => (i < ndiv b)%nat /\ free_of b i /\ exactly b (nvar b + i) | Mark_empty => tab_empty b = true | Nothing => True end.
Proof.
  intros W Ne. induction n as [|n IH]; intros pairs used m P; cbn [more_loop]; [intros [= <-]; exact I|]. destruct (best_pair pairs) as [i|] eqn:EB; [|discriminate]. apply best_pair_ok in EB. destruct (P i EB) as (Hi & _ & Fr).
  destruct (lower_loop tab_empty tab_min b i (seq 0 (length (b_ineq b))) used) as [ok used'] eqn:EL. destruct (used' && tab_empty b) eqn:EU; [intros [= <-]; apply andb_true_iff in EU; apply EU|]. destruct ok; [|apply IH; apply good_pairs_0; exact P].
  intros [= <-]. split; [exact Hi|]. split; [exact Fr|]. apply (loop_exact b i used W Ne Hi Fr). rewrite EL. reflexivity.
Qed.
End More.
