(** The sets where a piecewise expression is non-negative or zero, and the
    operations that are defined in terms of them. *)
From Coq Require Import ZArith List Bool QArith Arith Lia Permutation ZifyBool Lqa.
From Verif Require Import SeqSpec SeqModel SeqProofs MatModel BMapModel BMapSpec BMapSem BMapGauss2 LocalModel LocalSpec LocalProofs SimpModel SimpDups SetModel SpaceModel SpaceSpec QpSpec QpProofs ValModel ValSpec SetBase SetSpec SetLift SetOps SetMaps AffModel AffSpec AffProofs AffArith AffMore PwModel PwSpec PwBase PwOps.
Import ListNotations.
Open Scope Z_scope.

(** ** integer divisions as constraints *)
Section Local.
Variables (np no : nat) (M : mat).
Let d := (np + no)%nat.
Hypothesis WD : wf_divs d M.
Hypothesis KN : known M.
Definition up_row (i : nat) : list Z := let r := nth i M [] in zupd (tl r) (1 + d + i) (- hd 0 r).
Definition lo_row (i : nat) : list Z :=
  let r := nth i M [] in let q := zupd (seq_neg (tl r)) (1 + d + i) (hd 0 r) in zupd q 0 (hd 0 q + nth (1 + d + i) q 0 - 1).
Definition div_rows (l : list nat) : list (list Z) := flat_map (fun i => [up_row i; lo_row i]) l.
Lemma hd_nth0 (r : list Z) : hd 0 r = nth 0 r 0.
Proof. destruct r; reflexivity. Qed.
Lemma add_known_rows : forall l I, (forall i, List.In i l -> (i < length M)%nat) ->
  fold_left (fun b i => if hd 0 (nth i (b_div b) []) =? 0 then b else add_lower_div_constraint (add_upper_div_constraint b i) i) l (mkb np 0 no [] I M false false false) = mkb np 0 no [] (I ++ div_rows l) M false false false.
Proof.
  induction l as [|i l IH]; intros I H; cbn [fold_left]; [cbn; rewrite app_nil_r; reflexivity|]. cbn [b_div]. assert (K : nth 0 (nth i M []) 0 <> 0) by (apply KN, H; left; reflexivity). rewrite hd_nth0. destruct (Z.eqb_spec (nth 0 (nth i M []) 0) 0); [contradiction|]. unfold add_lower_div_constraint, add_upper_div_constraint, set_ineq, nvar. cbn [b_param b_in b_out b_eq b_ineq b_div b_rat b_empty b_nd].
  rewrite <- !app_assoc. cbn [app]. rewrite IH by (intros j J; apply H; right; exact J). f_equal. rewrite <- app_assoc. cbn [div_rows flat_map app]. unfold up_row, lo_row, d. rewrite ?Nat.add_0_r. reflexivity.
Qed.
Lemma row_len i : (i < length M)%nat -> length (tl (nth i M [])) = (1 + d + length M)%nat.
Proof. intros H. destruct (WD i H) as (L & _). destruct (nth i M []); [discriminate L|cbn in *; lia]. Qed.
Lemma row_own i : (i < length M)%nat -> nth (1 + d + i) (tl (nth i M [])) 0 = 0.
Proof. intros H. destruct (WD i H) as (L & _ & Z). specialize (Z (2 + d + i)%nat ltac:(lia)). destruct (nth i M []) as [|a r]; [discriminate L|exact Z]. Qed.
Lemma up_ok i v : (i < length M)%nat -> dot (up_row i) v = dot (tl (nth i M [])) v - hd 0 (nth i M []) * nth (1 + d + i) v 0.
Proof. intros H. unfold up_row. rewrite dot_zupd by (rewrite (row_len i H); lia). rewrite (row_own i H). ring. Qed.
Lemma nth_neg l : forall i, nth i (seq_neg l) 0 = - nth i l 0.
Proof. unfold seq_neg. induction l as [|a l IH]; intros [|i]; cbn [map nth]; auto. Qed.
Lemma lo_ok i v : (i < length M)%nat -> hd 0 v = 1 -> dot (lo_row i) v = - dot (tl (nth i M [])) v + hd 0 (nth i M []) * nth (1 + d + i) v 0 + hd 0 (nth i M []) - 1.
Proof.
  intros H V. unfold lo_row. cbv zeta. set (q := zupd (seq_neg (tl (nth i M []))) (1 + d + i) (hd 0 (nth i M []))). assert (LN : length (seq_neg (tl (nth i M []))) = (1 + d + length M)%nat) by (unfold seq_neg; rewrite map_length; exact (row_len i H)). assert (LQ : length q = (1 + d + length M)%nat) by (unfold q; rewrite zupd_length; exact LN).
  replace (hd 0 q + nth (1 + d + i) q 0 - 1) with (hd 0 q + (nth (1 + d + i) q 0 - 1)) by ring. rewrite dot_add_const by lia. rewrite V. unfold q. rewrite dot_zupd by lia. rewrite dot_seq_neg, nth_neg, (row_own i H). rewrite nth_zupd by lia. rewrite Nat.eqb_refl. rewrite (proj2 (Nat.ltb_lt (1 + d + i) (length (seq_neg (tl (nth i M []))))) ltac:(lia)). cbn [andb]. ring.
Qed.
Lemma div_rows_len l : (forall i, List.In i l -> (i < length M)%nat) -> rows_of (1 + d + length M) (div_rows l).
Proof.
  intros H. apply Forall_forall. intros r R. apply in_flat_map in R. destruct R as (i & I & R). specialize (H i I). pose proof (row_len i H) as L. destruct R as [<-|[<-|[]]]; unfold up_row, lo_row; rewrite ?zupd_length; unfold seq_neg; rewrite ?map_length; exact L.
Qed.
Lemma div_rows_system v : hd 0 v = 1 -> (Forall (nonneg_on v) (div_rows (seq 0 (length M))) <-> divisions M (1 + d) v).
Proof.
  intros V. split.
  - intros F k K. right. rewrite Forall_forall in F. assert (U : nonneg_on v (up_row k)) by (apply F, in_flat_map; exists k; split; [apply in_seq; lia|left; reflexivity]). assert (L : nonneg_on v (lo_row k)) by (apply F, in_flat_map; exists k; split; [apply in_seq; lia|right; left; reflexivity]).
    unfold nonneg_on in *. rewrite (up_ok k v K) in U. rewrite (lo_ok k v K V) in L. lia.
  - intros D. apply Forall_forall. intros r R. apply in_flat_map in R. destruct R as (i & I & R). apply in_seq in I. assert (K : (i < length M)%nat) by lia. destruct (D i K) as [Z|B]; [rewrite hd_nth0 in Z; destruct (KN i K Z)|]. unfold nonneg_on. destruct R as [<-|[<-|[]]]; [rewrite (up_ok i v K)|rewrite (lo_ok i v K V)]; lia.
Qed.
Lemma divisions_sat p e : length p = (1 + d)%nat -> hd 0 p = 1 -> length e = length M -> (divisions M (1 + d) (p ++ e) <-> sat d M (p ++ e)).
Proof.
  intros Lp Hp Le. assert (L : length (p ++ e) = (1 + d + length M)%nat) by (rewrite app_length; lia). assert (V0 : nth 0 (p ++ e) 0 = 1) by (destruct p; [discriminate Lp|exact Hp]). split.
  - intros D. split; [exact L|]. split; [exact V0|]. intros i I N. destruct (D i I) as [Z|B]; [rewrite hd_nth0 in Z; contradiction|]. destruct (WD i I) as (LR & P & _). rewrite hd_nth0 in B. destruct (nth i M []) as [|a r]; [discriminate LR|]. cbn [nth tl skipn] in *. apply (Z.div_unique _ _ _ (dot r (p ++ e) - a * nth (1 + d + i) (p ++ e) 0)); lia.
  - intros (_ & _ & D) k K. right. specialize (D k K (KN k K)). destruct (WD k K) as (LR & P & _). pose proof (KN k K) as N. destruct (nth k M []) as [|a r]; [discriminate LR|]. cbn [nth tl skipn hd] in *. rewrite D. pose proof (Z.mul_div_le (dot r (p ++ e)) a ltac:(lia)). pose proof (Z.mul_succ_div_gt (dot r (p ++ e)) a ltac:(lia)). lia.
Qed.
End Local.

Lemma div_nil d : wf_divs d [] /\ known [].
Proof. split; intros i I; cbn in I; lia. Qed.

Section Sets.
Variable sp : space.
Hypothesis SET : is_set sp = true.
Notation point := (point sp).
Notation ok_set := (ok_set sp).
Notation ok_aff := (ok_aff sp).
Notation ok_pw := (ok_pw sp).
Notation disj := (disjoint_pieces sp).
Notation wf_pw := (wf_pw sp).
Variable simplify : bmap -> res bmap.
Hypothesis SIMP : keeps_basic simplify.

(** ** one affine constraint *)
Definition local_rows (f : aff) : list (list Z) := div_rows (nparam sp) (n_out sp) (a_div f) (seq 0 (length (a_div f))).
Lemma local_space_eq f : wf_aff f -> is_equal (a_sp f) sp = true -> from_local_space sp (a_div f) = mkb (nparam sp) 0 (n_out sp) [] (local_rows f) (a_div f) false false false.
Proof.
  intros ((WD & K & L) & _) E. unfold from_local_space, add_known_div_constraints. change (BMapModel.ndiv (mkb (nparam sp) 0 (n_out sp) [] [] (a_div f) false false false)) with (length (a_div f)). rewrite (add_known_rows (nparam sp) (n_out sp) (a_div f) K _ []) by (intros i I; apply in_seq in I; lia). reflexivity.
Qed.
Lemma a_d_eq f : is_equal (a_sp f) sp = true -> a_d f = (nparam sp + n_out sp)%nat.
Proof. intros E. unfold a_d. rewrite (is_equal_dim _ _ E). exact (set_dim sp SET). Qed.
Lemma constraint_ok f EQ INEQ : wf_aff f -> is_equal (a_sp f) sp = true -> let n := (1 + (nparam sp + n_out sp) + length (a_div f))%nat in rows_of n EQ -> rows_of n INEQ ->
  let b := mkb (nparam sp) 0 (n_out sp) EQ (local_rows f ++ INEQ) (a_div f) false false false in
  okb (nparam sp) 0 (n_out sp) b /\ forall P O, point P O -> (relates b P [] O <-> exists w, sat (a_d f) (a_div f) w /\ firstn (1 + a_d f) w = 1 :: P ++ O /\ system EQ INEQ w).
Proof.
  intros W E n LE LI b. pose proof (a_d_eq f E) as D. pose proof W as ((WD & K & L) & _). rewrite D in WD, L. set (M := a_div f) in *.
  assert (TOT : total b = (nparam sp + n_out sp + length M)%nat) by (unfold total, nvar, BMapModel.ndiv; cbn; lia).
  assert (NV : nvar b = (nparam sp + n_out sp)%nat) by (unfold nvar; cbn; lia).
  assert (LR : rows_of n (local_rows f)) by (apply (div_rows_len (nparam sp) (n_out sp) M WD); intros i I; apply in_seq in I; fold M in I; lia).
  assert (PB : proper b).
  { split; [|split; [|split; [|split; [|split; [reflexivity|intros X; discriminate X]]]]].
    - split; [rewrite TOT; exact LE|]. split; [rewrite TOT; apply Forall_app; split; assumption|]. rewrite TOT. apply Forall_forall. intros r R. apply (In_nth _ _ []) in R. destruct R as (i & I & <-). change (b_div b) with M in *. destruct (WD i I) as (A & _). rewrite A. lia.
    - exists (fun k => k). intros k j HK HJ _ N. change (b_div b) with M in *. destruct (Nat.lt_ge_cases j k) as [|G]; [assumption|]. exfalso. apply N. unfold BMapModel.ndiv in HK. change (b_div b) with M in HK. destruct (WD k HK) as (_ & _ & Z). rewrite NV. apply Z. lia.
    - apply Forall_forall. intros r R. apply (In_nth _ _ []) in R. destruct R as (i & I & <-). change (b_div b) with M in *. destruct (WD i I) as (_ & A & _). rewrite hd_nth0. exact A.
    - intros v Lv Hv (_ & SI). change (b_ineq b) with (local_rows f ++ INEQ) in SI. apply Forall_app in SI. destruct SI as (SI & _). rewrite NV. change (b_div b) with M. apply (div_rows_system (nparam sp) (n_out sp) M WD K v Hv). exact SI. }
  split; [split; [exact PB|repeat split]|]. intros P O (LP & LO). unfold relates, points, member. change (b_empty b) with false. change ([] ++ O) with O. set (p := 1 :: P ++ O). assert (Lp : length p = (1 + (nparam sp + n_out sp))%nat) by (unfold p; cbn [length]; rewrite app_length; lia).
  change (b_eq b) with EQ. change (b_ineq b) with (local_rows f ++ INEQ). unfold described. change (BMapModel.ndiv b) with (length M). rewrite D. split.
  - intros (_ & e & Le & SE & SI). apply Forall_app in SI. destruct SI as (SI & SI'). exists (p ++ e). split; [|split; [|split; assumption]].
    + apply (divisions_sat (nparam sp) (n_out sp) M WD K p e Lp eq_refl Le). apply (div_rows_system (nparam sp) (n_out sp) M WD K (p ++ e) eq_refl). exact SI.
    + rewrite <- Lp, firstn_app, Nat.sub_diag, firstn_all. cbn [firstn]. apply app_nil_r.
  - intros (w & SW & FW & SE & SI). split; [reflexivity|]. exists (skipn (1 + (nparam sp + n_out sp)) w). assert (EW : w = p ++ skipn (1 + (nparam sp + n_out sp)) w) by (rewrite <- FW at 1; symmetry; apply firstn_skipn). assert (Le : length (skipn (1 + (nparam sp + n_out sp)) w) = length M) by (rewrite skipn_length; destruct SW as (LW & _); rewrite LW; lia).
    split; [exact Le|]. rewrite <- EW. split; [exact SE|]. apply Forall_app. split; [|exact SI]. apply (div_rows_system (nparam sp) (n_out sp) M WD K w); [destruct SW as (_ & H & _); rewrite hd_nth0; exact H|]. rewrite EW. apply (divisions_sat (nparam sp) (n_out sp) M WD K p _ Lp eq_refl Le). rewrite <- EW. exact SW.
Qed.
Lemma row_v f : wf_aff f -> is_equal (a_sp f) sp = true -> length (skipn 1 (a_v f)) = (1 + (nparam sp + n_out sp) + length (a_div f))%nat.
Proof. intros ((_ & _ & L) & _) E. rewrite skipn_length, L, (a_d_eq f E). unfold a_n. lia. Qed.
Lemma set_of_basic b : okb (nparam sp) 0 (n_out sp) b -> ok_set (add_basic_map [] b) /\ forall P O, holds (add_basic_map [] b) P O <-> relates b P [] O.
Proof.
  intros OK. unfold add_basic_map. destruct (b_empty b) eqn:E.
  - split; [constructor|]. intros P O. split; [intros (c & [] & _)|intros (F & _); congruence].
  - cbn [app]. split; [constructor; [exact OK|constructor]|]. intros P O. split; [intros (c & [<-|[]] & H); exact H|intros H; exists b; split; [left; reflexivity|exact H]].
Qed.
Lemma simplified b b' : okb (nparam sp) 0 (n_out sp) b -> simplify b = Ok b' -> ok_set (add_basic_map [] b') /\ forall P O, point P O -> (holds (add_basic_map [] b') P O <-> relates b P [] O).
Proof.
  intros (PB & SZ) E. pose proof (SIMP b b' PB E) as SM. destruct (set_of_basic b' (same_okb _ _ _ b b' SM SZ)) as (A & B). split; [exact A|]. intros P O (LP & LO). rewrite B. symmetry. destruct SZ as (Z1 & Z2 & Z3). apply same_relates; [exact SM|congruence|rewrite Z2; reflexivity|congruence].
Qed.
(** the sign of a value *)
Lemma sign_ok f P O w : wf_aff f -> sat (a_d f) (a_div f) w -> firstn (1 + a_d f) w = 1 :: P ++ O -> forall q, avalue f (1 :: P ++ O) q -> (inject_Z (nth 0 (a_v f) 0%Z) * q == inject_Z (dot (skipn 1 (a_v f)) w))%Q.
Proof.
  intros ((WD & K & L) & _) SW FW q (w' & SW' & FW' & E). assert (w' = w) by (eapply sat_unique; eauto; congruence). subst w'. exact E.
Qed.
Definition sign_set (fn : aff -> res set) (rel : Q -> Prop) : Prop :=
  forall f s, wf_aff f -> is_equal (a_sp f) sp = true -> fn f = Ok s -> ok_set s /\ forall P O q, point P O -> avalue f (1 :: P ++ O) q -> (holds s P O <-> rel q).
Lemma den_pos f : wf_aff f -> (0 < inject_Z (nth 0 (a_v f) 0%Z))%Q.
Proof. intros (_ & W). unfold Qlt. cbn. lia. Qed.
Lemma scaled_sign (d q z : Q) : (0 < d)%Q -> (d * q == z)%Q -> ((0 <= z)%Q <-> (0 <= q)%Q) /\ ((z == 0)%Q <-> (q == 0)%Q).
Proof.
  intros D E. split; split; intros H.
  - rewrite <- E in H. apply Qnot_lt_le. intros N. assert (d * q < 0)%Q; [|lra]. setoid_replace 0%Q with (d * 0)%Q by ring. apply Qmult_lt_l; assumption.
  - rewrite <- E. apply Qmult_le_0_compat; lra.
  - rewrite H in E. apply Qmult_integral in E. destruct E as [E|E]; [lra|exact E].
  - rewrite <- E, H. ring.
Qed.
Lemma inj_nonneg z : (0 <= inject_Z z)%Q <-> 0 <= z.
Proof. change 0%Q with (inject_Z 0). rewrite <- Zle_Qle. reflexivity. Qed.
Lemma inj_zero z : (inject_Z z == 0)%Q <-> z = 0.
Proof. change 0%Q with (inject_Z 0). apply inj_eq. Qed.
Lemma nonneg_sign : sign_set (aff_nonneg simplify sp) (fun q => (0 <= q)%Q).
Proof.
  intros f s W E. unfold aff_nonneg. rewrite (not_nan f W), (local_space_eq f W E). cbv zeta. unfold set_ineq. cbn [b_param b_in b_out b_eq b_ineq b_div b_rat b_empty b_nd].
  destruct (constraint_ok f [] [skipn 1 (a_v f)] W E (Forall_nil _) (Forall_cons _ (row_v f W E) (Forall_nil _))) as (OK & Q). destruct (simplify _) as [b'| | |] eqn:ES; cbn [LocalModel.bind]; try discriminate. intros [= <-]. destruct (simplified _ b' OK ES) as (A & B). split; [exact A|]. intros P O q H V. rewrite (B P O H), (Q P O H). pose proof (fun z => scaled_sign _ q z (den_pos f W)) as SG. split.
  - intros (w & SW & FW & _ & F). inversion F as [|? ? F1 _]; subst. apply (SG _ (sign_ok f P O w W SW FW q V)). apply inj_nonneg. exact F1.
  - intros N. destruct V as (w & SW & FW & EV). exists w. split; [exact SW|]. split; [exact FW|]. split; [constructor|]. constructor; [|constructor]. unfold nonneg_on. apply inj_nonneg. apply (SG _ EV). exact N.
Qed.
Lemma zero_sign : sign_set (aff_zeroes simplify sp) (fun q => (q == 0)%Q).
Proof.
  intros f s W E. unfold aff_zeroes. rewrite (not_nan f W), (local_space_eq f W E). cbv zeta. unfold set_eq. cbn [b_param b_in b_out b_eq b_ineq b_div b_rat b_empty b_nd].
  destruct (constraint_ok f [skipn 1 (a_v f)] [] W E (Forall_cons _ (row_v f W E) (Forall_nil _)) (Forall_nil _)) as (OK & Q). rewrite app_nil_r in OK, Q. cbn [app]. destruct (simplify _) as [b'| | |] eqn:ES; cbn [LocalModel.bind]; try discriminate. intros [= <-]. destruct (simplified _ b' OK ES) as (A & B). split; [exact A|]. intros P O q H V. rewrite (B P O H), (Q P O H). pose proof (fun z => scaled_sign _ q z (den_pos f W)) as SG. split.
  - intros (w & SW & FW & F & _). inversion F as [|? ? F1 _]; subst. apply (SG _ (sign_ok f P O w W SW FW q V)). apply inj_zero. exact F1.
  - intros N. destruct V as (w & SW & FW & EV). exists w. split; [exact SW|]. split; [exact FW|]. split; [|constructor]. constructor; [|constructor]. unfold zero_on. apply inj_zero. apply (SG _ EV). exact N.
Qed.
(** the numerator is at least one *)
Lemma pos_sign : sign_set (aff_pos simplify sp) (fun q => (0 < q)%Q).
Proof.
  intros f s W E. unfold aff_pos. rewrite (not_nan f W), (local_space_eq f W E). cbv zeta. unfold set_ineq. cbn [b_param b_in b_out b_eq b_ineq b_div b_rat b_empty b_nd]. pose proof (row_v f W E) as LV. set (c := skipn 1 (a_v f)) in *.
  assert (LC : length (zupd c 0 (nth 0 c 0 - 1)) = (1 + (nparam sp + n_out sp) + length (a_div f))%nat) by (rewrite zupd_length; exact LV).
  destruct (constraint_ok f [] [zupd c 0 (nth 0 c 0 - 1)] W E (Forall_nil _) (Forall_cons _ LC (Forall_nil _))) as (OK & Q). destruct (simplify _) as [b'| | |] eqn:ES; cbn [LocalModel.bind]; try discriminate. intros [= <-]. destruct (simplified _ b' OK ES) as (A & B). split; [exact A|]. intros P O q H V. rewrite (B P O H), (Q P O H).
  assert (DC : forall w, nth 0 w 0 = 1 -> dot (zupd c 0 (nth 0 c 0 - 1)) w = dot c w - 1) by (intros w W0; rewrite dot_zupd by lia; rewrite W0; ring).
  assert (SG : forall z, (inject_Z (nth 0 (a_v f) 0%Z) * q == inject_Z z)%Q -> (0 <= z - 1 <-> (0 < q)%Q)).
  { intros z EZ. destruct (scaled_sign _ q _ (den_pos f W) EZ) as (S1 & S2). rewrite inj_nonneg in S1. rewrite inj_zero in S2. split; intros X; [assert (~ (q == 0)%Q) by (rewrite <- S2; lia); assert (0 <= q)%Q by (apply S1; lia); destruct (Qlt_le_dec 0 q) as [Y|Y]; [exact Y|]; exfalso; apply H0; lra|]. assert (0 <= z) by (apply S1; lra). assert (z <> 0) by (rewrite S2; lra). lia. }
  split.
  - intros (w & SW & FW & _ & F). inversion F as [|? ? F1 _]; subst. unfold nonneg_on in F1. rewrite DC in F1 by apply SW. apply (SG (dot c w)); [exact (sign_ok f P O w W SW FW q V)|exact F1].
  - intros N. destruct V as (w & SW & FW & EV). exists w. split; [exact SW|]. split; [exact FW|]. split; [constructor|]. constructor; [|constructor]. unfold nonneg_on. rewrite DC by apply SW. apply (SG (dot c w) EV). exact N.
Qed.

(** ** the points where a piecewise expression has some sign *)
Variables (intersect subtract : set -> set -> res set).
Hypothesis INT : exact_intersect sp intersect.
Hypothesis SUB : exact_subtract sp subtract.
Lemma locus_ok fn rel compl : sign_set fn rel -> forall pw acc r, ok_pw pw -> ok_set acc -> locus intersect subtract fn compl pw acc = Ok r ->
  ok_set r /\ forall P O, point P O -> (holds r P O <-> holds acc P O \/ exists q, takes pw P O (Num q) /\ if compl then ~ rel q else rel q).
Proof.
  intros SG. induction pw as [|(s, f) t IH]; intros acc r W A; cbn [locus].
  - intros [= <-]. split; [exact A|]. intros P O _. split; [auto|]. intros [X|(q & T & _)]; [exact X|destruct (takes_nil _ _ _ T)].
  - apply ok_cons in W. destruct W as ((S & F) & W). destruct F as ([WF|N] & EF).
    + rewrite (not_nan f WF). destruct (fn f) as [l| | |] eqn:EL; cbn [LocalModel.bind]; try discriminate. destruct (SG f l WF EF EL) as (L & QL).
      destruct (if compl then subtract s l else intersect s l) as [s'| | |] eqn:ES; cbn [LocalModel.bind]; try discriminate.
      assert (SS : ok_set s' /\ forall P O q, point P O -> avalue f (1 :: P ++ O) q -> (holds s' P O <-> holds s P O /\ if compl then ~ rel q else rel q)).
      { destruct compl; [destruct (SUB s l s' S L ES) as (A' & B')|destruct (INT s l s' S L ES) as (A' & B')]; (split; [exact A'|]); intros P O q H V; rewrite (B' P O H), (QL P O q H V); reflexivity. }
      destruct SS as (S' & Q'). destruct (union_disjoint_holds sp acc s' A S') as (U & QU). intros E. destruct (IH _ r W U E) as (R & QR). split; [exact R|]. intros P O H. rewrite (QR P O H), (QU P O H). destruct (avalue_total f (1 :: P ++ O) WF (point_int sp SET f P O (conj (or_introl WF) EF) H)) as (q0 & V0). split.
      * intros [[X|X]|(q & T & R0)]; [left; exact X|right; exists q0; apply (Q' P O q0 H V0) in X; split; [apply takes_cons; left; split; [apply X|split; assumption]|apply X]|right; exists q; split; [apply takes_cons; right; exact T|exact R0]].
      * intros [X|(q & T & R0)]; [auto|]. apply takes_cons in T. destruct T as [(X & (_ & V))|T]; [left; right; apply (Q' P O q H V); auto|right; exists q; auto].
    + rewrite (nan_is_nan f N). intros E. destruct (IH acc r W A E) as (R & QR). split; [exact R|]. intros P O H. rewrite (QR P O H). split; (intros [X|(q & T & R0)]; [auto|right; exists q; split; [|exact R0]]); [apply takes_cons; right; exact T|]. apply takes_cons in T. destruct T as [(_ & (WF & _))|T]; [destruct (nan_not_wf _ WF N)|exact T].
Qed.
Lemma locus_nil fn rel compl pw r : sign_set fn rel -> ok_pw pw -> locus intersect subtract fn compl pw [] = Ok r ->
  ok_set r /\ forall P O, point P O -> (holds r P O <-> exists q, takes pw P O (Num q) /\ if compl then ~ rel q else rel q).
Proof. intros SG W E. destruct (locus_ok fn rel compl SG pw [] r W (Forall_nil _) E) as (R & Q). split; [exact R|]. intros P O H. rewrite (Q P O H). split; [intros [(b & [] & _)|X]; exact X|auto]. Qed.

(** ** comparisons *)
Variables (gist subst_hull : aff -> set -> res aff) (junk : nat -> Z).
Hypothesis GIST : keeps_value sp gist.
Hypothesis SUBST : keeps_value sp subst_hull.
Lemma zero_value : exists z, aff_zero sp [] = Ok z /\ ok_aff z /\ forall P O, point P O -> is_value z P O (Num 0).
Proof.
  destruct (div_nil (dim_all sp)) as (D & K). destruct (zero_ok sp [] D K SET) as (z & E & SZ & MZ & W & V). exists z. split; [exact E|]. split; [split; [left; exact W|rewrite SZ; apply is_equal_refl]|]. intros P O H. split; [exact W|]. apply V. destruct H as (LP & LO). rewrite (set_dim sp SET). split; [cbn [length]; rewrite app_length; lia|reflexivity].
Qed.
Lemma constant_value k : exists z, aff_zero sp [] = Ok z /\ ok_aff (aff_add_constant z k) /\ forall P O, point P O -> is_value (aff_add_constant z k) P O (Num (inject_Z k)).
Proof.
  destruct zero_value as (z & E & OZ & V). exists z. split; [exact E|]. destruct OZ as ([W|N] & EZ); [|destruct (nan_not_wf z (proj1 (V _ _ (some_point sp))) N)]. pose proof (add_constant_ok z k W) as C. pose proof C as (SC & _ & WC & _). split; [split; [left; exact WC|rewrite SC; exact EZ]|].
  intros P O H. split; [exact WC|]. destruct (V P O H) as (_ & A). assert (PV : position_value z (1 :: P ++ O) (1 - 1) 1). { pose proof (point_int sp SET z P O (conj (or_introl W) EZ) H) as IP. destruct A as (w & SW & FW & _). exists w. split; [exact SW|]. split; [exact FW|]. apply SW. }
  pose proof (changes_value z _ 1 _ W (cst_range z W) C _ _ _ A PV) as B. eapply avalue_ext; [|exact B]. change (inject_Z 1) with 1%Q. ring.
Qed.
Lemma neg_pw pw r : wf_pw pw -> pw_neg pw = Ok r -> wf_pw r /\ (forall P O, defined r P O <-> defined pw P O) /\ forall P O x, point P O -> takes pw P O x -> takes r P O (lift1 Qopp x).
Proof. intros (W & J) E. destruct (un_op_ok sp _ _ (neg_op1 sp) pw r W E) as (A & B & C & D). split; [split; [exact A|exact (C J)]|]. split; [exact B|]. intros P O x H T. exact (D P O x _ H T eq_refl). Qed.
Lemma add_pw pw1 pw2 r : wf_pw pw1 -> wf_pw pw2 -> pw_add intersect gist junk pw1 pw2 = Ok r ->
  wf_pw r /\ (forall P O, point P O -> (defined r P O <-> defined pw1 P O /\ defined pw2 P O)) /\ forall P O x1 x2, point P O -> takes pw1 P O x1 -> takes pw2 P O x2 -> takes r P O (lift2 Qplus x1 x2).
Proof. exact (on_shared_ok sp intersect gist INT GIST _ _ (add_op2 sp junk) pw1 pw2 r). Qed.
Lemma sub_pw pw1 pw2 r : wf_pw pw1 -> wf_pw pw2 -> pw_sub intersect gist junk pw1 pw2 = Ok r ->
  wf_pw r /\ (forall P O, point P O -> (defined r P O <-> defined pw1 P O /\ defined pw2 P O)) /\ forall P O x1 x2, point P O -> takes pw1 P O x1 -> takes pw2 P O x2 -> takes r P O (lift2 Qminus x1 x2).
Proof.
  intros W1 W2. unfold pw_sub. destruct (pw_neg pw2) as [n| | |] eqn:EN; cbn [LocalModel.bind]; try discriminate. destruct (neg_pw pw2 n W2 EN) as (WN & DN & TN). intros E. destruct (add_pw pw1 n r W1 WN E) as (A & B & C). split; [exact A|]. split; [intros P O H; rewrite (B P O H), DN; reflexivity|]. intros P O x1 x2 H T1 T2. pose proof (C P O _ _ H T1 (TN P O _ H T2)) as T. destruct x1, x2; exact T.
Qed.
(** what a comparison computes, on the common domain *)
Definition diff (strict : bool) (a b : Q) : Q := if strict then (a - b - 1)%Q else (a - b)%Q.
Lemma gte_set_ok pw1 pw2 strict equal r : wf_pw pw1 -> wf_pw pw2 -> gte_set simplify intersect subtract gist subst_hull junk sp pw1 pw2 strict equal = Ok r ->
  ok_set r /\ forall P O, point P O -> (holds r P O <-> exists a b, takes pw1 P O (Num a) /\ takes pw2 P O (Num b) /\ if equal then (diff strict a b == 0)%Q else (0 <= diff strict a b)%Q).
Proof.
  intros W1 W2. unfold gte_set. destruct (domain_ok sp pw1 (proj1 W1)) as (D1 & Q1). destruct (domain_ok sp pw2 (proj1 W2)) as (D2 & Q2). destruct (intersect (pw_domain pw1) (pw_domain pw2)) as [s| | |] eqn:ES; cbn [LocalModel.bind]; try discriminate. destruct (INT _ _ s D1 D2 ES) as (S & QS).
  destruct (intersect_domain intersect subst_hull pw1 s) as [p1| | |] eqn:E1; cbn [LocalModel.bind]; try discriminate. destruct (intersect_domain_ok sp SET intersect subst_hull pw1 s p1 INT SUBST W1 S E1) as (WP1 & R1).
  destruct (intersect_domain intersect subst_hull pw2 s) as [p2| | |] eqn:E2; cbn [LocalModel.bind]; try discriminate. destruct (intersect_domain_ok sp SET intersect subst_hull pw2 s p2 INT SUBST W2 S E2) as (WP2 & R2).
  intros E.
  assert (ED : exists d, (let! n := pw_neg p2 in pw_add intersect gist junk p1 n) = Ok d /\ (let! d := (if strict then let! z := aff_zero sp [] in pw_add intersect gist junk d (pw_alloc s (aff_add_constant z (-1))) else Ok d) in if equal then pw_zero_set simplify intersect subtract sp d else pw_nonneg_set simplify intersect subtract sp d) = Ok r).
  { destruct (pw_neg p2) as [n| | |]; cbn [LocalModel.bind] in *; try discriminate. destruct (pw_add intersect gist junk p1 n) as [d| | |]; cbn [LocalModel.bind] in *; try discriminate. exists d. auto. }
  destruct ED as (d & Ed & E'). destruct (sub_pw p1 p2 d WP1 WP2 Ed) as (WD & DD & TD). clear E.
  assert (ED : exists d', wf_pw d' /\ (forall P O, point P O -> (defined d' P O <-> defined pw1 P O /\ defined pw2 P O)) /\ (forall P O x1 x2, point P O -> takes pw1 P O x1 -> takes pw2 P O x2 -> takes d' P O (lift2 (diff strict) x1 x2)) /\ (if equal then pw_zero_set simplify intersect subtract sp d' else pw_nonneg_set simplify intersect subtract sp d') = Ok r).
  { assert (BS : (forall P O, point P O -> (defined d P O <-> defined pw1 P O /\ defined pw2 P O)) /\ (forall P O x1 x2, point P O -> takes pw1 P O x1 -> takes pw2 P O x2 -> takes d P O (lift2 Qminus x1 x2))).
    { split.
      - intros P O H. rewrite (DD P O H). destruct (R1 P O H) as (-> & _). destruct (R2 P O H) as (-> & _). rewrite (QS P O H), (Q1 P O H), (Q2 P O H). tauto.
      - intros P O x1 x2 H T1 T2. assert (HS : holds s P O) by (apply (QS P O H); split; [apply (Q1 P O H)|apply (Q2 P O H)]; eapply takes_defined; eassumption). apply (TD P O x1 x2 H); [apply (R1 P O H); assumption|apply (R2 P O H); assumption]. }
    destruct BS as (BD & BT). destruct strict; [|exists d; auto]. destruct (constant_value (-1)) as (z & Ez & OZ & VZ). rewrite Ez in E'. cbn [LocalModel.bind] in E'. destruct (pw_add intersect gist junk d (pw_alloc s (aff_add_constant z (-1)))) as [d'| | |] eqn:E3; cbn [LocalModel.bind] in E'; try discriminate.
    assert (WZ : wf_pw (pw_alloc s (aff_add_constant z (-1)))) by exact (wf_single sp s _ S OZ). destruct (add_pw d _ d' WD WZ E3) as (A & B & C). exists d'. split; [exact A|]. split; [|split; [|exact E']].
    - intros P O H. rewrite (B P O H), (BD P O H). unfold pw_alloc. rewrite (defined_single s _ P O), (QS P O H), (Q1 P O H), (Q2 P O H). tauto.
    - intros P O x1 x2 H T1 T2. assert (HS : holds s P O) by (apply (QS P O H); split; [apply (Q1 P O H)|apply (Q2 P O H)]; eapply takes_defined; eassumption). pose proof (C P O _ (Num (inject_Z (-1))) H (BT P O x1 x2 H T1 T2) ltac:(apply takes_single; split; [exact HS|exact (VZ P O H)])) as T. eapply takes_ext; [|exact T]. destruct x1, x2; cbn; try exact I. unfold diff. change (inject_Z (-1)) with (-1)%Q. ring. }
  destruct ED as (d' & WD' & DD' & TD' & EF). unfold pw_zero_set, pw_nonneg_set in EF.
  assert (LOC : exists rel : Q -> Prop, (forall q q', (q == q')%Q -> rel q -> rel q') /\ ok_set r /\ (forall P O, point P O -> (holds r P O <-> exists q, takes d' P O (Num q) /\ rel q)) /\ forall a b, rel (diff strict a b) <-> if equal then (diff strict a b == 0)%Q else (0 <= diff strict a b)%Q).
  { destruct equal; [exists (fun q => (q == 0)%Q)|exists (fun q => (0 <= q)%Q)]; (split; [intros q q' X; rewrite X; auto|]); [destruct (locus_nil _ _ false d' r zero_sign (proj1 WD') EF) as (A & B)|destruct (locus_nil _ _ false d' r nonneg_sign (proj1 WD') EF) as (A & B)]; (split; [exact A|]); (split; [exact B|]); reflexivity. }
  destruct LOC as (rel & EXT & OKR & HR & RR). split; [exact OKR|]. intros P O H. rewrite (HR P O H). split.
  - intros (q & T & R). destruct (proj1 (DD' P O H) (takes_defined _ _ _ _ T)) as (X1 & X2). destruct (defined_takes sp SET pw1 P O (proj1 W1) H X1) as (x1 & T1). destruct (defined_takes sp SET pw2 P O (proj1 W2) H X2) as (x2 & T2). pose proof (takes_unique sp d' P O _ _ WD' H T (TD' P O x1 x2 H T1 T2)) as U. destruct x1 as [|a], x2 as [|b]; cbn in U; try contradiction. exists a, b. split; [exact T1|]. split; [exact T2|]. apply RR. exact (EXT _ _ U R).
  - intros (a & b & T1 & T2 & R). exists (diff strict a b). split; [exact (TD' P O _ _ H T1 T2)|]. apply RR. exact R.
Qed.
End Sets.
