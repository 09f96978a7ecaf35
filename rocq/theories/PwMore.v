(** Choices between piecewise expressions. *)
From Coq Require Import ZArith List Bool QArith Qminmax Arith Lia Permutation ZifyBool Lqa.
From Verif Require Import SeqSpec SeqModel MatModel BMapModel LocalModel SimpModel SetModel SpaceModel SpaceSpec QpSpec QpProofs SetBase SetSpec SetOps SetMaps AffModel AffSpec AffProofs AffMore PwModel PwSpec PwBase PwOps PwSets PwOpt.
Import ListNotations.
Open Scope Z_scope.

Lemma one_zero : ~ (1 == 0)%Q.
Proof. discriminate. Qed.
Section More.
Variable sp : space.
Hypothesis SET : is_set sp = true.
Notation point := (point sp).
Notation ok_set := (ok_set sp).
Notation ok_aff := (ok_aff sp).
Notation ok_pw := (ok_pw sp).
Notation disj := (disjoint_pieces sp).
Notation wf_pw := (wf_pw sp).
Variable simplify : bmap -> res bmap.
Variables (intersect subtract union : set -> set -> res set) (complement coalesce normalize : set -> res set) (plain_equal : set -> set -> res bool) (sort : pwaff -> pwaff).
Variables (gist subst_hull : aff -> set -> res aff) (junk : nat -> Z) (full : pwaff -> pwaff -> bool).
Hypothesis SIMP : keeps_basic simplify.
Hypothesis INT : exact_intersect sp intersect.
Hypothesis SUB : exact_subtract sp subtract.
Hypothesis UNI : exact_union sp union.
Hypothesis COMPL : exact_complement sp complement.
Hypothesis COAL : keeps_set sp coalesce.
Hypothesis NORM : keeps_set sp normalize.
Hypothesis EQUAL : sound_equal sp plain_equal.
Hypothesis SORT : forall l, Permutation l (sort l).
Hypothesis GIST : keeps_value sp gist.
Hypothesis SUBST : keeps_value sp subst_hull.

Lemma universe_ok : ok_set (set_universe sp) /\ forall P O, point P O -> holds (set_universe sp) P O.
Proof.
  assert (PB : proper (fresh_map (nparam sp) 0 (n_out sp))).
  { split; [|split; [|split; [|split; [|split]]]].
    - split; [constructor|]. split; constructor.
    - exists (fun k => k). intros k j K. cbn in K. lia.
    - constructor.
    - intros v _ _ _ k K. cbn in K. lia.
    - reflexivity.
    - intros X; discriminate X. }
  split; [constructor; [split; [exact PB|repeat split]|constructor]|]. intros P O H. exists (fresh_map (nparam sp) 0 (n_out sp)). split; [left; reflexivity|]. split; [reflexivity|]. exists []. split; [reflexivity|]. split; constructor.
Qed.
Lemma nan_value : exists n, aff_nan sp [] = Ok n /\ ok_aff n /\ nan_aff n.
Proof. destruct (div_nil (dim_all sp)) as (D & K). destruct (nan_ok sp [] D K SET) as (n & E & S & N). exists n. split; [exact E|]. split; [split; [right; exact N|rewrite S; apply is_equal_refl]|exact N]. Qed.
Lemma pw_nan_ok r : pw_nan sp = Ok r -> wf_pw r /\ forall P O, point P O -> defined r P O /\ takes r P O NaN.
Proof.
  unfold pw_nan. destruct nan_value as (n & -> & OK & N). cbn [LocalModel.bind]. intros [= <-]. destruct universe_ok as (U & QU). split; [exact (wf_single sp _ _ U OK)|]. intros P O H. split; [apply defined_single, QU, H|]. apply takes_single. split; [exact (QU P O H)|exact N].
Qed.
Lemma select_ok c1 pw1 c2 pw2 r : wf_pw pw1 -> wf_pw pw2 -> ok_set c1 -> ok_set c2 -> (forall P O, point P O -> ~ (holds c1 P O /\ holds c2 P O)) -> pw_select intersect subst_hull full c1 pw1 c2 pw2 = Ok r ->
  wf_pw r /\ forall P O, point P O -> (defined r P O <-> (defined pw1 P O /\ holds c1 P O) \/ (defined pw2 P O /\ holds c2 P O)) /\ (forall x, takes pw1 P O x -> holds c1 P O -> takes r P O x) /\ (forall x, takes pw2 P O x -> holds c2 P O -> takes r P O x).
Proof.
  intros W1 W2 C1 C2 N. unfold pw_select. destruct (intersect_domain intersect subst_hull pw1 c1) as [p1| | |] eqn:E1; cbn [LocalModel.bind]; try discriminate. destruct (intersect_domain_ok sp SET intersect subst_hull pw1 c1 p1 INT SUBST W1 C1 E1) as (V1 & R1). destruct (intersect_domain intersect subst_hull pw2 c2) as [p2| | |] eqn:E2; cbn [LocalModel.bind]; try discriminate. destruct (intersect_domain_ok sp SET intersect subst_hull pw2 c2 p2 INT SUBST W2 C2 E2) as (V2 & R2). intros [= <-].
  destruct (add_disjoint_ok sp full p1 p2 V1 V2) as (A & Q); [intros P O H (X & Y); apply (R1 P O H) in X; apply (R2 P O H) in Y; apply (N P O H); tauto|]. split; [exact A|]. intros P O H. destruct (Q P O H) as (QD & QT). destruct (R1 P O H) as (D1 & T1). destruct (R2 P O H) as (D2 & T2). split; [rewrite QD, D1, D2; reflexivity|]. split; intros x T X; apply QT; [left; apply T1|right; apply T2]; assumption.
Qed.
Lemma no_nan_involves pw : no_nan pw -> pw_involves_nan pw = false.
Proof. intros H. unfold pw_involves_nan. induction H as [|(s, f) t F _ IH]; [reflexivity|]. cbn [existsb snd] in *. rewrite (not_nan f F), IH. reflexivity. Qed.
Lemma involves_no_nan pw : ok_pw pw -> pw_involves_nan pw = false -> no_nan pw.
Proof. intros W H. unfold pw_involves_nan in H. induction pw as [|(s, f) t IH]; [constructor|]. apply ok_cons in W. destruct W as ((_ & F) & W). cbn [existsb snd] in H. apply orb_false_iff in H. destruct H as (H1 & H2). constructor; [|apply IH; assumption]. destruct F as ([F|N] & _); [exact F|]. rewrite (nan_is_nan f N) in H1. discriminate. Qed.
Lemma no_nan_num pw P O x : no_nan pw -> takes pw P O x -> exists q, x = Num q.
Proof. intros N (s & f & I & _ & V). destruct x as [|q]; [|exists q; reflexivity]. unfold no_nan in N. rewrite Forall_forall in N. destruct (nan_not_wf f (N _ I) V). Qed.

Lemma cond_ok cond pwt pwf r : wf_pw cond -> no_nan cond -> wf_pw pwt -> wf_pw pwf -> pw_cond simplify intersect subtract union subst_hull sort coalesce normalize plain_equal sp full cond pwt pwf = Ok r ->
  wf_pw r /\ forall P O, point P O ->
    (defined r P O -> defined cond P O) /\
    forall q, takes cond P O (Num q) ->
      (~ (q == 0)%Q -> (defined r P O <-> defined pwt P O) /\ forall x, takes pwt P O x -> takes r P O x) /\
      ((q == 0)%Q -> (defined r P O <-> defined pwf P O) /\ forall x, takes pwf P O x -> takes r P O x).
Proof.
  intros WC NC W1 W2. unfold pw_cond. rewrite (no_nan_involves cond NC). destruct (pw_plain_equal union sort normalize plain_equal pwt pwf) as [e| | |] eqn:EE; cbn [LocalModel.bind]; try discriminate. destruct e.
  - pose proof (pw_plain_equal_ok sp union sort UNI SORT normalize plain_equal pwt pwf NORM EQUAL W1 W2 EE) as SF. destruct (domain_ok sp cond (proj1 WC)) as (D & QD). destruct (coalesce (pw_domain cond)) as [d| | |] eqn:ED; cbn [LocalModel.bind]; try discriminate. destruct (COAL _ d D ED) as (D' & QD'). intros E. destruct (intersect_domain_ok sp SET intersect subst_hull pwt d r INT SUBST W1 D' E) as (WR & R). split; [exact WR|]. intros P O H. destruct (R P O H) as (RD & RT). rewrite (QD' P O H), (QD P O H) in RD. split; [tauto|]. intros q T. pose proof (takes_defined _ _ _ _ T) as DC. assert (HD : holds d P O) by (apply (QD' P O H), (QD P O H); exact DC). destruct (SF P O H) as (SD & ST). split; intros _; (split; [tauto|]); intros x X; apply RT; [exact X|exact HD|apply ST; exact X|exact HD].
  - unfold pw_non_zero_set, pw_zero_set. destruct (locus intersect subtract (aff_zeroes simplify sp) true cond []) as [ct| | |] eqn:E1; cbn [LocalModel.bind]; try discriminate. destruct (locus_nil sp SET intersect subtract INT SUB _ _ true cond ct (zero_sign sp SET simplify SIMP) (proj1 WC) E1) as (C1 & Q1).
    destruct (locus intersect subtract (aff_zeroes simplify sp) false cond []) as [cf| | |] eqn:E2; cbn [LocalModel.bind]; try discriminate. destruct (locus_nil sp SET intersect subtract INT SUB _ _ false cond cf (zero_sign sp SET simplify SIMP) (proj1 WC) E2) as (C2 & Q2). cbv beta iota in Q1, Q2. intros E.
    assert (ND : forall P O, point P O -> ~ (holds ct P O /\ holds cf P O)). { intros P O H (X & Y). apply (Q1 P O H) in X. apply (Q2 P O H) in Y. destruct X as (a & TA & A). destruct Y as (b & TB & B). pose proof (takes_unique sp cond P O _ _ WC H TA TB) as U. cbn [num_eq] in U. apply A. rewrite U. exact B. }
    destruct (select_ok ct pwt cf pwf r W1 W2 C1 C2 ND E) as (WR & R). split; [exact WR|]. intros P O H. destruct (R P O H) as (RD & RT1 & RT2). split.
    + intros X. apply RD in X. destruct X as [(_ & X)|(_ & X)]; [apply (Q1 P O H) in X|apply (Q2 P O H) in X]; destruct X as (q & T & _); exact (takes_defined _ _ _ _ T).
    + intros q T. split; intros Z.
      * assert (X : holds ct P O) by (apply (Q1 P O H); exists q; auto). assert (Y : ~ holds cf P O) by (intros Y; exact (ND P O H (conj X Y))). split; [rewrite RD; tauto|]. intros x TX. exact (RT1 x TX X).
      * assert (X : holds cf P O) by (apply (Q2 P O H); exists q; auto). assert (Y : ~ holds ct P O) by (intros Y; exact (ND P O H (conj Y X))). split; [rewrite RD; tauto|]. intros x TX. exact (RT2 x TX X).
Qed.

Lemma indicator_ok s r : ok_set s -> indicator complement sp full s = Ok r ->
  wf_pw r /\ no_nan r /\ forall P O, point P O -> (holds s P O -> takes r P O (Num 1)) /\ (~ holds s P O -> takes r P O (Num 0)).
Proof.
  intros S. unfold indicator. destruct (constant_value sp SET 1) as (z & EZ & O1 & V1). destruct (zero_value sp SET) as (z' & EZ' & O0 & V0). rewrite EZ in EZ'. injection EZ' as <-. rewrite EZ. cbn [LocalModel.bind]. destruct (complement s) as [c| | |] eqn:EC; cbn [LocalModel.bind]; try discriminate. destruct (COMPL s c S EC) as (C & QC). intros [= <-].
  destruct (add_disjoint_ok sp full (pw_alloc s (aff_add_constant z 1)) (pw_alloc c z) (wf_single sp _ _ S O1) (wf_single sp _ _ C O0)) as (W & Q).
  { intros P O H (X & Y). unfold pw_alloc in X, Y. apply defined_single in X. apply defined_single in Y. apply (QC P O H) in Y. exact (Y X). }
  split; [exact W|]. split.
  - apply involves_no_nan; [exact (proj1 W)|]. destruct (pw_involves_nan _) eqn:E; [|reflexivity]. exfalso. unfold pw_involves_nan in E. apply existsb_exists in E. destruct E as ((u, f) & I & F). cbn [snd] in F.
    assert (IN : List.In (u, f) (pw_alloc s (aff_add_constant z 1)) \/ List.In (u, f) (pw_alloc c z)).
    { revert I. assert (AP : forall pw2 pw1, List.In (u, f) (append_pieces pw1 pw2) -> List.In (u, f) pw1 \/ List.In (u, f) pw2).
      { unfold append_pieces. induction pw2 as [|(a, b) t IH]; intros pw1; cbn [fold_left]; [auto|]. intros X. apply IH in X. destruct X as [X|X]; [|right; right; exact X]. unfold add_piece in X. cbn [fst snd] in X. destruct (plain_empty a); [auto|]. apply in_app_or in X. destruct X as [X|[X|[]]]; [auto|right; left; exact X]. }
      unfold add_disjoint. set (A := pw_alloc s _). set (B := pw_alloc c z). destruct (_ && _)%bool; destruct A as [|a A'], B as [|b B']; intros X; auto; apply AP in X; tauto. }
    assert (V : exists x, is_value f (zeros (nparam sp)) (zeros (n_out sp)) (Num x)).
    { destruct IN as [IN|IN]; unfold pw_alloc, add_piece in IN; destruct (plain_empty _) in IN; cbn in IN; destruct IN as [IN|[]] || destruct IN; injection IN as <- <-; eexists; [apply V1|apply V0]; apply some_point. }
    destruct V as (x & (WF & _)). rewrite (not_nan f WF) in F. discriminate.
  - intros P O H. destruct (Q P O H) as (_ & QT). split; intros X; apply QT; [left|right]; unfold pw_alloc; apply takes_single; [split; [exact X|exact (V1 P O H)]|split; [apply (QC P O H); exact X|exact (V0 P O H)]].
Qed.

(** ** division *)
Lemma div_pw pw1 pw2 r : wf_pw pw1 -> wf_pw pw2 -> pw_div intersect gist pw1 pw2 = Ok r ->
  wf_pw r /\ (forall P O, point P O -> (defined r P O <-> defined pw1 P O /\ defined pw2 P O)) /\ forall P O x1 x2, point P O -> takes pw1 P O x1 -> takes pw2 P O x2 -> takes r P O (ndiv x1 x2).
Proof. intros W1 W2. unfold pw_div. destruct (negb (pw_is_cst pw2)); [discriminate|]. exact (on_shared_ok sp intersect gist INT GIST _ _ (div_op2 sp SET) pw1 pw2 r W1 W2). Qed.
Lemma mul_pw pw1 pw2 r : wf_pw pw1 -> wf_pw pw2 -> pw_mul intersect gist pw1 pw2 = Ok r ->
  wf_pw r /\ (forall P O, point P O -> (defined r P O <-> defined pw1 P O /\ defined pw2 P O)) /\ forall P O x1 x2, point P O -> takes pw1 P O x1 -> takes pw2 P O x2 -> takes r P O (lift2 Qmult x1 x2).
Proof. exact (on_shared_ok sp intersect gist INT GIST _ _ (mul_op2 sp) pw1 pw2 r). Qed.
Definition trunc_of (x y : num) : Prop := on_num is_trunc x y.
Lemma floor_ex q : exists n, is_floor q n.
Proof. exists (Qround.Qfloor q). split; [apply Qround.Qfloor_le|]. pose proof (Qround.Qlt_floor q) as H. exact H. Qed.
Lemma un_pw fn rel : op1 sp fn rel -> forall pw r, wf_pw pw -> un_op fn pw = Ok r -> wf_pw r /\ (forall P O, defined r P O <-> defined pw P O) /\ forall P O x y, point P O -> takes pw P O x -> rel x y -> takes r P O y.
Proof. intros R pw r (W & J) E. destruct (un_op_ok sp fn rel R pw r W E) as (A & B & C & D). split; [split; [exact A|exact (C J)]|]. split; [exact B|exact D]. Qed.
Lemma tdiv_q_ok pw1 pw2 r : wf_pw pw1 -> wf_pw pw2 ->
  pw_tdiv_q simplify intersect subtract union gist subst_hull sort coalesce complement normalize plain_equal sp full pw1 pw2 = Ok r ->
  wf_pw r /\ (forall P O, point P O -> (defined r P O <-> defined pw1 P O /\ defined pw2 P O)) /\ forall P O x1 x2 y, point P O -> takes pw1 P O x1 -> takes pw2 P O x2 -> on_num is_trunc (ndiv x1 x2) y -> takes r P O y.
Proof.
  intros W1 W2. unfold pw_tdiv_q. destruct (negb (pw_is_cst pw2)); [discriminate|]. destruct (pw_div intersect gist pw1 pw2) as [q| | |] eqn:EQ; cbn [LocalModel.bind]; try discriminate. destruct (div_pw pw1 pw2 q W1 W2 EQ) as (WQ & DQ & TQ).
  unfold pw_nonneg_set. destruct (locus intersect subtract (aff_nonneg simplify sp) false q []) as [c| | |] eqn:EC; cbn [LocalModel.bind]; try discriminate. destruct (locus_nil sp SET intersect subtract INT SUB _ _ false q c (nonneg_sign sp SET simplify SIMP) (proj1 WQ) EC) as (C & QC). cbv beta iota in QC.
  unfold pw_floor, pw_ceil. destruct (un_op aff_floor q) as [f| | |] eqn:EF; cbn [LocalModel.bind]; try discriminate. destruct (un_pw _ _ (floor_op1 sp) q f WQ EF) as (WF & DF & TF). destruct (un_op aff_ceil q) as [g| | |] eqn:EG; cbn [LocalModel.bind]; try discriminate. destruct (un_pw _ _ (ceil_op1 sp) q g WQ EG) as (WG & DG & TG).
  destruct (indicator complement sp full c) as [i| | |] eqn:EI; cbn [LocalModel.bind]; try discriminate. destruct (indicator_ok c i C EI) as (WI & NI & QI). intros E. destruct (cond_ok i f g r WI NI WF WG E) as (WR & R). split; [exact WR|].
  assert (DEC : forall P O, point P O -> defined q P O -> holds c P O \/ ~ holds c P O).
  { intros P O H D. destruct (defined_takes sp SET q P O (proj1 WQ) H D) as (x & T). rewrite (QC P O H). destruct x as [|a].
    - right. intros (b & T' & _). pose proof (takes_unique sp q P O _ _ WQ H T T') as U. exact U.
    - destruct (Qlt_le_dec a 0) as [L|L]; [right; intros (b & T' & B); pose proof (takes_unique sp q P O _ _ WQ H T T') as U; cbn [num_eq] in U; lra|left; exists a; auto]. }
  assert (RQ : forall P O, point P O -> defined q P O -> defined r P O).
  { intros P O H D. destruct (R P O H) as (_ & RC). destruct (DEC P O H D) as [X|X]; [apply (proj1 (proj1 (RC 1%Q (proj1 (QI P O H) X)) one_zero)), DF; exact D|apply (proj1 (proj2 (RC 0%Q (proj2 (QI P O H) X)) (Qeq_refl 0))), DG; exact D]. }
  assert (RQ' : forall P O, point P O -> defined r P O -> defined q P O).
  { intros P O H D. destruct (R P O H) as (RD & RC). pose proof (RD D) as DI. destruct (defined_takes sp SET i P O (proj1 WI) H DI) as (x & T). destruct (no_nan_num i P O x NI T) as (a & ->). destruct (Qeq_dec a 0) as [Z|Z]; [apply DG; apply (proj1 (proj2 (RC a T) Z)); exact D|apply DF; apply (proj1 (proj1 (RC a T) Z)); exact D]. }
  split; [intros P O H; rewrite <- (DQ P O H); split; [apply RQ'|apply RQ]; exact H|].
  intros P O x1 x2 y H T1 T2 TR. pose proof (TQ P O x1 x2 H T1 T2) as T. set (x := ndiv x1 x2) in *. destruct (R P O H) as (_ & RC). destruct (DEC P O H (takes_defined _ _ _ _ T)) as [X|X].
  - apply (proj2 (proj1 (RC 1%Q (proj1 (QI P O H) X)) one_zero)). apply (TF P O x y H T). apply (QC P O H) in X. destruct X as (b & TB & B). pose proof (takes_unique sp q P O _ _ WQ H T TB) as U. destruct x as [|a]; [exact TR|]. cbn [num_eq] in U. destruct TR as (n & (TR & _) & ->). exists n. split; [apply TR; lra|reflexivity].
  - apply (proj2 (proj2 (RC 0%Q (proj2 (QI P O H) X)) (Qeq_refl 0))). apply (TG P O x y H T). destruct x as [|a]; [exact TR|]. destruct TR as (n & (_ & TR) & ->). exists n. split; [|reflexivity]. apply TR. apply Qnot_le_lt. intros L. apply X. apply (QC P O H). exists a. auto.
Qed.
Lemma trunc_ex q : exists n, is_trunc q n.
Proof.
  destruct (Qlt_le_dec q 0) as [L|L].
  - destruct (floor_ex (- q)) as (n & F1 & F2). exists (- n). split; [lra|]. intros _. split; [|replace (- n - 1) with (- (n + 1)) by ring]; rewrite inject_Z_opp; lra.
  - destruct (floor_ex q) as (n & F). exists n. split; [intros _; exact F|lra].
Qed.
Lemma tdiv_r_ok pw1 pw2 r : wf_pw pw1 -> wf_pw pw2 ->
  pw_tdiv_r simplify intersect subtract union gist subst_hull sort coalesce complement normalize plain_equal junk sp full pw1 pw2 = Ok r ->
  wf_pw r /\ (forall P O, point P O -> (defined r P O <-> defined pw1 P O /\ defined pw2 P O)) /\ forall P O x1 x2 y, point P O -> takes pw1 P O x1 -> takes pw2 P O x2 -> on_num is_trunc (ndiv x1 x2) y -> takes r P O (lift2 Qminus x1 (lift2 Qmult x2 y)).
Proof.
  intros W1 W2. unfold pw_tdiv_r. destruct (negb (pw_is_cst pw2)); [discriminate|]. destruct (pw_tdiv_q _ _ _ _ _ _ _ _ _ _ _ _ _ pw1 pw2) as [q| | |] eqn:EQ; cbn [LocalModel.bind]; try discriminate. destruct (tdiv_q_ok pw1 pw2 q W1 W2 EQ) as (WQ & DQ & TQ). destruct (pw_mul intersect gist pw2 q) as [m| | |] eqn:EM; cbn [LocalModel.bind]; try discriminate. destruct (mul_pw pw2 q m W2 WQ EM) as (WM & DM & TM). intros E. destruct (sub_pw sp intersect INT gist junk GIST pw1 m r W1 WM E) as (WR & DR & TR). split; [exact WR|]. split.
  - intros P O H. rewrite (DR P O H), (DM P O H), (DQ P O H). tauto.
  - intros P O x1 x2 y H T1 T2 Y. exact (TR P O _ _ H T1 (TM P O _ _ H T2 (TQ P O _ _ _ H T1 T2 Y))).
Qed.
Lemma scale_pw pw k r : wf_pw pw -> pw_scale pw k = Ok r -> wf_pw r /\ (forall P O, defined r P O <-> defined pw P O) /\ forall P O x, point P O -> takes pw P O x -> takes r P O (lift1 (fun q => q * inject_Z k)%Q x).
Proof.
  intros W. unfold pw_scale. destruct (Z.eqb_spec k 1) as [->|].
  - intros [= <-]. split; [exact W|]. split; [reflexivity|]. intros P O x H T. eapply takes_ext; [|exact T]. destruct x; cbn; [exact I|]. change (inject_Z 1) with 1%Q. ring.
  - intros E. destruct (un_pw _ _ (scale_op1 sp k) pw r W E) as (A & B & C). split; [exact A|]. split; [exact B|]. intros P O x H T. exact (C P O x _ H T eq_refl).
Qed.
Lemma scale_down_pw pw k r : wf_pw pw -> pw_scale_down pw k = Ok r -> 0 < k /\ wf_pw r /\ (forall P O, defined r P O <-> defined pw P O) /\ forall P O x, point P O -> takes pw P O x -> takes r P O (lift1 (fun q => q / inject_Z k)%Q x).
Proof.
  intros W. unfold pw_scale_down. destruct (Z.eqb_spec k 1) as [->|].
  - intros [= <-]. split; [reflexivity|]. split; [exact W|]. split; [reflexivity|]. intros P O x H T. eapply takes_ext; [|exact T]. destruct x; cbn; [exact I|]. change (inject_Z 1) with 1%Q. field.
  - destruct (Z.ltb_spec 0 k); cbn [negb]; [|discriminate]. intros E. split; [assumption|]. destruct (un_pw _ _ (scale_down_op1 sp k H) pw r W E) as (A & B & C). split; [exact A|]. split; [exact B|]. intros P O x PT T. exact (C P O x _ PT T eq_refl).
Qed.
Lemma mod_ok pw m r : wf_pw pw -> pw_mod intersect gist junk pw m = Ok r ->
  0 < m /\ wf_pw r /\ (forall P O, point P O -> (defined r P O <-> defined pw P O)) /\ forall P O x, point P O -> takes pw P O x -> match x with NaN => takes r P O NaN | Num q => forall n, is_floor (q / inject_Z m) n -> takes r P O (Num (q - inject_Z n * inject_Z m)) end.
Proof.
  intros W. unfold pw_mod. destruct (pw_scale_down pw m) as [a| | |] eqn:EA; cbn [LocalModel.bind]; try discriminate. destruct (scale_down_pw pw m a W EA) as (M & WA & DA & TA). unfold pw_floor. destruct (un_op aff_floor a) as [b| | |] eqn:EB; cbn [LocalModel.bind]; try discriminate. destruct (un_pw _ _ (floor_op1 sp) a b WA EB) as (WB & DB & TB). destruct (pw_scale b m) as [c| | |] eqn:EC; cbn [LocalModel.bind]; try discriminate. destruct (scale_pw b m c WB EC) as (WC & DC & TC). intros E. destruct (sub_pw sp intersect INT gist junk GIST pw c r W WC E) as (WR & DR & TR). split; [exact M|]. split; [exact WR|]. split.
  - intros P O H. rewrite (DR P O H), DC, DB, DA. tauto.
  - intros P O x H T. pose proof (TA P O x H T) as T1. destruct x as [|q].
    + exact (TR P O _ _ H T (TC P O _ H (TB P O _ NaN H T1 eq_refl))).
    + intros n F. exact (TR P O _ _ H T (TC P O _ H (TB P O _ (Num (inject_Z n)) H T1 (ex_intro _ n (conj F eq_refl))))).
Qed.

(** ** minimum and maximum *)
Lemma replace_nan_ok pw1 pw2 r : wf_pw pw1 -> wf_pw pw2 -> replace_by_nan intersect subst_hull sp pw1 pw2 = Ok r ->
  wf_pw r /\ forall P O, point P O -> (defined r P O <-> defined pw1 P O /\ defined pw2 P O) /\ (defined r P O -> takes r P O NaN).
Proof.
  intros W1 W2. unfold replace_by_nan. destruct (domain_ok sp pw1 (proj1 W1)) as (D1 & Q1). destruct (domain_ok sp pw2 (proj1 W2)) as (D2 & Q2). destruct (intersect (pw_domain pw1) (pw_domain pw2)) as [d| | |] eqn:ED; cbn [LocalModel.bind]; try discriminate. destruct (INT _ _ d D1 D2 ED) as (D & QD). cbv beta in QD. destruct (pw_nan sp) as [n| | |] eqn:EN; cbn [LocalModel.bind]; try discriminate. destruct (pw_nan_ok n EN) as (WN & QN). intros E. destruct (intersect_domain_ok sp SET intersect subst_hull n d r INT SUBST WN D E) as (WR & R). split; [exact WR|]. intros P O H. destruct (R P O H) as (RD & RT). destruct (QN P O H) as (ND & NT). pose proof (QD P O H) as QH. rewrite (Q1 P O H), (Q2 P O H) in QH. split; [tauto|]. intros X. apply RT; tauto.
Qed.
Lemma pick_ok (rel : Q -> Q -> Prop) pw1 pw2 d s d' r : (forall a b, rel a b \/ ~ rel a b) -> (forall a a' b b', (a == a')%Q -> (b == b')%Q -> rel a b -> rel a' b') -> wf_pw pw1 -> wf_pw pw2 -> no_nan pw1 -> no_nan pw2 ->
  intersect (pw_domain pw1) (pw_domain pw2) = Ok d -> ok_set s -> (forall P O, point P O -> (holds s P O <-> exists a b, takes pw1 P O (Num a) /\ takes pw2 P O (Num b) /\ rel a b)) -> subtract d s = Ok d' -> pw_select intersect subst_hull full s pw1 d' pw2 = Ok r ->
  wf_pw r /\ forall P O, point P O -> (defined r P O <-> defined pw1 P O /\ defined pw2 P O) /\ forall a b, takes pw1 P O (Num a) -> takes pw2 P O (Num b) -> (rel a b -> takes r P O (Num a)) /\ (~ rel a b -> takes r P O (Num b)).
Proof.
  intros DEC EXT W1 W2 N1 N2 ED S QS ES E. destruct (domain_ok sp pw1 (proj1 W1)) as (D1 & Q1). destruct (domain_ok sp pw2 (proj1 W2)) as (D2 & Q2). destruct (INT _ _ d D1 D2 ED) as (D & QD). cbv beta in QD. destruct (SUB _ _ d' D S ES) as (D' & QD'). cbv beta in QD'.
  assert (VAL : forall P O, point P O -> forall a b, takes pw1 P O (Num a) -> takes pw2 P O (Num b) -> (holds s P O <-> rel a b)).
  { intros P O H a b T1 T2. rewrite (QS P O H). split; [intros (a' & b' & A & B & R); exact (EXT _ _ _ _ (takes_unique sp pw1 P O _ _ W1 H A T1) (takes_unique sp pw2 P O _ _ W2 H B T2) R)|intros R; exists a, b; auto]. }
  destruct (select_ok s pw1 d' pw2 r W1 W2 S D') as (WR & R); [intros P O H (X & Y); apply (QD' P O H) in Y; tauto|exact E|]. split; [exact WR|]. intros P O H. destruct (R P O H) as (RD & RT1 & RT2). pose proof (QD' P O H) as QH. rewrite (QD P O H), (Q1 P O H), (Q2 P O H) in QH. rewrite QH in RD. split.
  - rewrite RD. split.
    + intros [(X & Y)|X]; [|tauto]. apply (QS P O H) in Y. destruct Y as (a & b & _ & B & _). split; [exact X|exact (takes_defined _ _ _ _ B)].
    + intros (X & Y). destruct (defined_takes sp SET pw1 P O (proj1 W1) H X) as (x1 & T1). destruct (no_nan_num pw1 P O x1 N1 T1) as (a & ->). destruct (defined_takes sp SET pw2 P O (proj1 W2) H Y) as (x2 & T2). destruct (no_nan_num pw2 P O x2 N2 T2) as (b & ->). rewrite (VAL P O H a b T1 T2). destruct (DEC a b); tauto.
  - intros a b T1 T2. pose proof (takes_defined _ _ _ _ T1). pose proof (takes_defined _ _ _ _ T2). rewrite <- (VAL P O H a b T1 T2). split; intros X; [exact (RT1 _ T1 X)|apply (RT2 _ T2); tauto].
Qed.
Lemma le_dec a b : (a <= b)%Q \/ ~ (a <= b)%Q.
Proof. destruct (Qlt_le_dec b a); [right; lra|left; assumption]. Qed.
Lemma min_ok pw1 pw2 r : wf_pw pw1 -> wf_pw pw2 -> no_nan pw1 -> no_nan pw2 -> pw_min simplify intersect subtract gist subst_hull junk sp full pw1 pw2 = Ok r ->
  wf_pw r /\ forall P O, point P O -> (defined r P O <-> defined pw1 P O /\ defined pw2 P O) /\ forall a b, takes pw1 P O (Num a) -> takes pw2 P O (Num b) -> takes r P O (Num (Qmin a b)).
Proof.
  intros W1 W2 N1 N2. unfold pw_min. rewrite (no_nan_involves _ N1), (no_nan_involves _ N2). cbn [orb]. unfold pw_aff_min. destruct (intersect (pw_domain pw1) (pw_domain pw2)) as [d| | |] eqn:ED; cbn [LocalModel.bind]; try discriminate. unfold pw_le_set, pw_ge_set. destruct (gte_set _ _ _ _ _ _ _ pw2 pw1 false false) as [s| | |] eqn:ES; cbn [LocalModel.bind]; try discriminate. destruct (gte_set_ok sp SET simplify SIMP intersect subtract INT SUB gist subst_hull junk GIST SUBST pw2 pw1 false false s W2 W1 ES) as (S & QS). destruct (subtract d s) as [d'| | |] eqn:ED'; cbn [LocalModel.bind]; try discriminate. intros E.
  destruct (pick_ok (fun a b => (a <= b)%Q) pw1 pw2 d s d' r le_dec ltac:(intros; cbv beta in *; lra) W1 W2 N1 N2 ED S) as (WR & R); [|exact ED'|exact E|].
  { intros P O H. rewrite (QS P O H). unfold diff. split; intros (a & b & A & B & C); exists b, a; (split; [exact B|]); (split; [exact A|]); cbv beta in *; lra. }
  split; [exact WR|]. intros P O H. destruct (R P O H) as (RD & RT). split; [exact RD|]. intros a b T1 T2. destruct (RT a b T1 T2) as (X & Y). destruct (le_dec a b) as [L|L]; [|assert (b <= a)%Q by lra]; (eapply takes_ext; [|first [exact (X L)|exact (Y L)]]); cbn [num_eq]; symmetry; [apply Q.min_l|apply Q.min_r]; assumption.
Qed.
Lemma max_ok pw1 pw2 r : wf_pw pw1 -> wf_pw pw2 -> no_nan pw1 -> no_nan pw2 -> pw_max simplify intersect subtract gist subst_hull junk sp full pw1 pw2 = Ok r ->
  wf_pw r /\ forall P O, point P O -> (defined r P O <-> defined pw1 P O /\ defined pw2 P O) /\ forall a b, takes pw1 P O (Num a) -> takes pw2 P O (Num b) -> takes r P O (Num (Qmax a b)).
Proof.
  intros W1 W2 N1 N2. unfold pw_max. rewrite (no_nan_involves _ N1), (no_nan_involves _ N2). cbn [orb]. unfold pw_aff_max. destruct (intersect (pw_domain pw1) (pw_domain pw2)) as [d| | |] eqn:ED; cbn [LocalModel.bind]; try discriminate. unfold pw_ge_set. destruct (gte_set _ _ _ _ _ _ _ pw1 pw2 false false) as [s| | |] eqn:ES; cbn [LocalModel.bind]; try discriminate. destruct (gte_set_ok sp SET simplify SIMP intersect subtract INT SUB gist subst_hull junk GIST SUBST pw1 pw2 false false s W1 W2 ES) as (S & QS). destruct (subtract d s) as [d'| | |] eqn:ED'; cbn [LocalModel.bind]; try discriminate. intros E.
  destruct (pick_ok (fun a b => (b <= a)%Q) pw1 pw2 d s d' r (fun a b => le_dec b a) ltac:(intros; cbv beta in *; lra) W1 W2 N1 N2 ED S) as (WR & R); [|exact ED'|exact E|].
  { intros P O H. rewrite (QS P O H). unfold diff. split; intros (a & b & A & B & C); exists a, b; (split; [exact A|]); (split; [exact B|]); cbv beta in *; lra. }
  split; [exact WR|]. intros P O H. destruct (R P O H) as (RD & RT). split; [exact RD|]. intros a b T1 T2. destruct (RT a b T1 T2) as (X & Y). destruct (le_dec b a) as [L|L]; [|assert (a <= b)%Q by lra]; (eapply takes_ext; [|first [exact (X L)|exact (Y L)]]); cbn [num_eq]; symmetry; [apply Q.max_l|apply Q.max_r]; assumption.
Qed.
Lemma min_nan_ok pw1 pw2 r : wf_pw pw1 -> wf_pw pw2 -> pw_involves_nan pw1 || pw_involves_nan pw2 = true ->
  pw_min simplify intersect subtract gist subst_hull junk sp full pw1 pw2 = Ok r \/ pw_max simplify intersect subtract gist subst_hull junk sp full pw1 pw2 = Ok r ->
  wf_pw r /\ forall P O, point P O -> (defined r P O <-> defined pw1 P O /\ defined pw2 P O) /\ (defined r P O -> takes r P O NaN).
Proof. intros W1 W2 N. unfold pw_min, pw_max. rewrite N. intros [E|E]; exact (replace_nan_ok pw1 pw2 r W1 W2 E). Qed.

(** ** strict comparisons *)
Definition integral (q : Q) : Prop := exists z, (q == inject_Z z)%Q.
Lemma gt_int a b : integral (a - b) -> ((0 <= a - b - 1)%Q <-> (b < a)%Q).
Proof.
  intros (z & E). assert (X : (0 <= inject_Z z - 1)%Q <-> (0 < inject_Z z)%Q).
  { change 1%Q with (inject_Z 1). change 0%Q with (inject_Z 0). unfold Qminus. rewrite <- inject_Z_opp, <- inject_Z_plus, <- Zle_Qle, <- Zlt_Qlt. lia. }
  split; intros H; [assert (0 < inject_Z z)%Q by (apply X; lra); lra|assert (0 <= inject_Z z - 1)%Q by (apply X; lra); lra].
Qed.
Lemma gt_set_ok pw1 pw2 r : wf_pw pw1 -> wf_pw pw2 -> pw_gt_set simplify intersect subtract gist subst_hull junk sp pw1 pw2 = Ok r ->
  ok_set r /\ forall P O, point P O -> (holds r P O -> exists a b, takes pw1 P O (Num a) /\ takes pw2 P O (Num b) /\ (b < a)%Q) /\ forall a b, takes pw1 P O (Num a) -> takes pw2 P O (Num b) -> integral (a - b) -> (holds r P O <-> (b < a)%Q).
Proof.
  intros W1 W2 E. destruct (gte_set_ok sp SET simplify SIMP intersect subtract INT SUB gist subst_hull junk GIST SUBST pw1 pw2 true false r W1 W2 E) as (R & Q). split; [exact R|]. unfold diff in Q. intros P O H. split.
  - intros X. apply (Q P O H) in X. destruct X as (a & b & A & B & L). exists a, b. split; [exact A|]. split; [exact B|]. lra.
  - intros a b A B I. rewrite (Q P O H), <- (gt_int a b I). split; [|intros L; exists a, b; auto]. intros (a' & b' & A' & B' & L). pose proof (takes_unique sp pw1 P O _ _ W1 H A A') as UA. pose proof (takes_unique sp pw2 P O _ _ W2 H B B') as UB. cbn [num_eq] in UA, UB. lra.
Qed.
Lemma ne_set_ok pw1 pw2 r : wf_pw pw1 -> wf_pw pw2 -> pw_ne_set simplify intersect subtract gist subst_hull junk sp pw1 pw2 = Ok r ->
  ok_set r /\ forall P O, point P O -> (holds r P O -> exists a b, takes pw1 P O (Num a) /\ takes pw2 P O (Num b) /\ ~ (a == b)%Q) /\ forall a b, takes pw1 P O (Num a) -> takes pw2 P O (Num b) -> integral (a - b) -> (holds r P O <-> ~ (a == b)%Q).
Proof.
  intros W1 W2. unfold pw_ne_set, pw_lt_set. destruct (pw_gt_set _ _ _ _ _ _ _ pw2 pw1) as [l| | |] eqn:EL; cbn [LocalModel.bind]; try discriminate. destruct (gt_set_ok pw2 pw1 l W2 W1 EL) as (L & QL). destruct (pw_gt_set _ _ _ _ _ _ _ pw1 pw2) as [g| | |] eqn:EG; cbn [LocalModel.bind]; try discriminate. destruct (gt_set_ok pw1 pw2 g W1 W2 EG) as (G & QG). intros [= <-]. destruct (union_disjoint_holds sp l g L G) as (U & QU). split; [exact U|]. intros P O H. destruct (QL P O H) as (L1 & L2). destruct (QG P O H) as (G1 & G2). rewrite (QU P O H). split.
  - intros [X|X]; [destruct (L1 X) as (b & a & B & A & C)|destruct (G1 X) as (a & b & A & B & C)]; exists a, b; (split; [exact A|]); (split; [exact B|]); lra.
  - intros a b A B I. assert (I' : integral (b - a)) by (destruct I as (z & E); exists (- z)%Z; rewrite inject_Z_opp, <- E; ring). rewrite (QU P O H), (L2 b a B A I'), (G2 a b A B I). split; [lra|]. intros N. destruct (Qlt_le_dec a b) as [X|X]; [left; exact X|right]. destruct (Qlt_le_dec b a) as [Y|Y]; [exact Y|]. destruct N. lra.
Qed.
End More.

Section Last.
Variable sp : space.
Hypothesis SET : is_set sp = true.
Notation point := (point sp).
Notation wf_pw := (wf_pw sp).
Variable simplify : bmap -> res bmap.
Variables (intersect subtract union : set -> set -> res set) (is_disjoint is_subset : set -> set -> res bool) (is_empty : set -> bool) (acmp : aff -> aff -> Z) (sort : pwaff -> pwaff).
Variables (gist subst_hull : aff -> set -> res aff) (junk : nat -> Z).
Hypothesis SIMP : keeps_basic simplify.
Hypothesis INT : exact_intersect sp intersect.
Hypothesis SUB : exact_subtract sp subtract.
Lemma eq_set_ok : keeps_value sp gist -> keeps_value sp subst_hull -> forall pw1 pw2 r, wf_pw pw1 -> wf_pw pw2 -> pw_eq_set simplify intersect subtract gist subst_hull junk sp pw1 pw2 = Ok r ->
  ok_set sp r /\ forall P O, point P O -> (holds r P O <-> exists a b, takes pw1 P O (Num a) /\ takes pw2 P O (Num b) /\ (a == b)%Q).
Proof.
  intros GIST SUBST pw1 pw2 r W1 W2 E. destruct (gte_set_ok sp SET simplify SIMP intersect subtract INT SUB gist subst_hull junk GIST SUBST pw1 pw2 false true r W1 W2 E) as (A & B). split; [exact A|]. intros P O H. rewrite (B P O H). unfold diff. split; intros (a & b & X & Y & Z); exists a, b; (split; [exact X|]); (split; [exact Y|]); lra.
Qed.
Lemma ge_set_ok : keeps_value sp gist -> keeps_value sp subst_hull -> forall pw1 pw2 r, wf_pw pw1 -> wf_pw pw2 -> pw_ge_set simplify intersect subtract gist subst_hull junk sp pw1 pw2 = Ok r ->
  ok_set sp r /\ forall P O, point P O -> (holds r P O <-> exists a b, takes pw1 P O (Num a) /\ takes pw2 P O (Num b) /\ (b <= a)%Q).
Proof.
  intros GIST SUBST pw1 pw2 r W1 W2 E. destruct (gte_set_ok sp SET simplify SIMP intersect subtract INT SUB gist subst_hull junk GIST SUBST pw1 pw2 false false r W1 W2 E) as (A & B). split; [exact A|]. intros P O H. rewrite (B P O H). unfold diff. split; intros (a & b & X & Y & Z); exists a, b; (split; [exact X|]); (split; [exact Y|]); lra.
Qed.
Lemma le_set_ok : keeps_value sp gist -> keeps_value sp subst_hull -> forall pw1 pw2 r, wf_pw pw1 -> wf_pw pw2 -> pw_le_set simplify intersect subtract gist subst_hull junk sp pw1 pw2 = Ok r ->
  ok_set sp r /\ forall P O, point P O -> (holds r P O <-> exists a b, takes pw1 P O (Num a) /\ takes pw2 P O (Num b) /\ (a <= b)%Q).
Proof.
  intros GIST SUBST pw1 pw2 r W1 W2 E. destruct (ge_set_ok GIST SUBST pw2 pw1 r W2 W1 E) as (A & B). split; [exact A|]. intros P O H. rewrite (B P O H). split; intros (a & b & X & Y & Z); exists b, a; auto.
Qed.
Lemma some_nan pw1 pw2 : wf_pw pw1 -> wf_pw pw2 -> ~ no_nan pw1 \/ ~ no_nan pw2 -> pw_involves_nan pw1 || pw_involves_nan pw2 = true.
Proof.
  intros (W1 & _) (W2 & _) N. destruct (pw_involves_nan pw1) eqn:E1; [reflexivity|]. destruct (pw_involves_nan pw2) eqn:E2; [reflexivity|]. destruct N as [N|N]; destruct N; [exact (involves_no_nan sp pw1 W1 E1)|exact (involves_no_nan sp pw2 W2 E2)].
Qed.
Hypothesis UNI : exact_union sp union.
Hypothesis DIS : sound_disjoint sp is_disjoint.
Hypothesis CMP : sound_cmp sp acmp.
Hypothesis SORT : forall l, Permutation l (sort l).
Lemma union_max_ok pw1 pw2 r : wf_pw pw1 -> wf_pw pw2 -> pw_union_max simplify intersect subtract union acmp sort is_disjoint is_subset is_empty junk sp pw1 pw2 = Ok r ->
  wf_pw r /\ forall P O, point P O ->
    (defined r P O -> defined pw1 P O \/ defined pw2 P O) /\
    (forall x, takes pw1 P O x -> ~ defined pw2 P O -> takes r P O x) /\
    (forall x, takes pw2 P O x -> ~ defined pw1 P O -> takes r P O x) /\
    (forall a b, takes pw1 P O (Num a) -> takes pw2 P O (Num b) -> takes r P O (Num (Qmax a b))).
Proof.
  intros W1 W2 E. destruct (union_opt_ok sp SET intersect subtract union is_disjoint is_subset is_empty acmp INT SUB UNI DIS CMP (fun a b => (b <= a)%Q) (fun a b => le_dec b a) ltac:(intros; cbv beta in *; lra) ltac:(intros; cbv beta in *; lra) _ (ge_best sp SET simplify junk SIMP) sort SORT pw1 pw2 r W1 W2 E) as (A & B). split; [exact A|]. intros P O H. destruct (B P O H) as (B1 & B2 & B3 & B4). split; [|split; [exact B2|split; [exact B3|]]].
  - intros D. destruct (defined_takes sp SET r P O (proj1 A) H D) as (x & T). destruct (B1 x T) as [X|X]; [left|right]; exact (takes_defined _ _ _ _ X).
  - intros a b T1 T2. destruct (B4 _ _ T1 T2) as [(T & R)|(T & R)]; cbn [better] in R; (eapply takes_ext; [|exact T]); cbn [num_eq]; symmetry; [apply Q.max_l|apply Q.max_r]; exact R.
Qed.
Lemma union_min_ok pw1 pw2 r : wf_pw pw1 -> wf_pw pw2 -> pw_union_min simplify intersect subtract union acmp sort is_disjoint is_subset is_empty junk sp pw1 pw2 = Ok r ->
  wf_pw r /\ forall P O, point P O ->
    (defined r P O -> defined pw1 P O \/ defined pw2 P O) /\
    (forall x, takes pw1 P O x -> ~ defined pw2 P O -> takes r P O x) /\
    (forall x, takes pw2 P O x -> ~ defined pw1 P O -> takes r P O x) /\
    (forall a b, takes pw1 P O (Num a) -> takes pw2 P O (Num b) -> takes r P O (Num (Qmin a b))).
Proof.
  intros W1 W2 E. destruct (union_opt_ok sp SET intersect subtract union is_disjoint is_subset is_empty acmp INT SUB UNI DIS CMP (fun a b => (a <= b)%Q) le_dec ltac:(intros; cbv beta in *; lra) ltac:(intros; cbv beta in *; lra) _ (le_best sp SET simplify junk SIMP) sort SORT pw1 pw2 r W1 W2 E) as (A & B). split; [exact A|]. intros P O H. destruct (B P O H) as (B1 & B2 & B3 & B4). split; [|split; [exact B2|split; [exact B3|]]].
  - intros D. destruct (defined_takes sp SET r P O (proj1 A) H D) as (x & T). destruct (B1 x T) as [X|X]; [left|right]; exact (takes_defined _ _ _ _ X).
  - intros a b T1 T2. destruct (B4 _ _ T1 T2) as [(T & R)|(T & R)]; cbn [better] in R; (eapply takes_ext; [|exact T]); cbn [num_eq]; symmetry; [apply Q.min_l|apply Q.min_r]; exact R.
Qed.
End Last.
