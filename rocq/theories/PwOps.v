(** Operations on piecewise expressions, piece by piece. *)
From Coq Require Import ZArith List Bool QArith Arith Lia Permutation.
From Verif Require Import MatModel BMapModel LocalModel SetModel SpaceModel ValModel ValSpec SetSpec AffModel AffSpec AffProofs AffArith AffMore PwModel PwSpec PwBase.
Import ListNotations.
Open Scope Z_scope.

Ltac btauto' := cbv beta in *; tauto.
Section Ops.
Variable sp : space.
Hypothesis SET : is_set sp = true.
Notation point := (point sp).
Notation ok_set := (ok_set sp).
Notation ok_aff := (ok_aff sp).
Notation ok_pw := (ok_pw sp).
Notation disj := (disjoint_pieces sp).
Notation wf_pw := (wf_pw sp).

(** ** evaluation *)
Lemma pw_eval_ok contains : exact_contains sp contains -> forall pw P O v, ok_pw pw -> disj pw -> point P O -> pw_eval contains pw (1 :: P ++ O) = Ok v ->
  (forall x, takes pw P O x -> means_num v x) /\ (~ defined pw P O -> means v ENan).
Proof.
  intros C pw P O v W D H. induction pw as [|(s, f) t IH]; cbn [pw_eval].
  - intros [= <-]. split; [intros x T; destruct (takes_nil _ _ _ T)|intros _; split; reflexivity].
  - apply ok_cons in W. destruct W as ((S & F) & W). apply disj_cons in D. destruct D as (D & N). destruct (contains s (1 :: P ++ O)) as [c| | |] eqn:E; cbn [LocalModel.bind]; try discriminate. pose proof (C s P O c S H E) as Q. destruct c.
    + assert (HS : holds s P O) by (apply Q; reflexivity). intros G. split; [|intros U; destruct U; apply defined_cons; left; exact HS].
      intros x T. apply takes_cons in T. destruct T as [(_ & V)|T]; [|destruct (N P O H); split; [exact HS|exact (takes_defined _ _ _ _ T)]]. destruct x as [|q]; cbn [is_value means_num] in *.
      * destruct (eval_nan f (1 :: P ++ O) V) as (y & E' & M); [left; exact (point_int sp SET f P O F H)|]. rewrite E' in G. injection G as <-. exact M.
      * destruct (eval_ok f (1 :: P ++ O) q (proj1 V) (proj2 V)) as (y & E' & M). rewrite E' in G. injection G as <-. exact M.
    + intros G. destruct (IH W D G) as (A & B). assert (HN : ~ holds s P O) by (intros X; apply Q in X; discriminate). split.
      * intros x T. apply takes_cons in T. destruct T as [(X & _)|T]; [contradiction|exact (A x T)].
      * intros U. apply B. intros X. apply U, defined_cons. right. exact X.
Qed.

(** ** one operation on all expressions *)
Lemma un_op_ok fn rel : op1 sp fn rel -> forall pw r, ok_pw pw -> un_op fn pw = Ok r ->
  ok_pw r /\ (forall P O, defined r P O <-> defined pw P O) /\ (disj pw -> disj r) /\ forall P O x y, point P O -> takes pw P O x -> rel x y -> takes r P O y.
Proof.
  intros OP. induction pw as [|(s, f) t IH]; intros r W; cbn [un_op].
  - intros [= <-]. split; [exact W|]. split; [reflexivity|]. split; [auto|]. intros P O x y _ T. destruct (takes_nil _ _ _ T).
  - apply ok_cons in W. destruct W as ((S & F) & W). destruct (fn f) as [g| | |] eqn:E; cbn [LocalModel.bind]; try discriminate. destruct (un_op fn t) as [u| | |] eqn:EU; cbn [LocalModel.bind]; try discriminate. intros [= <-].
    destruct (IH u W eq_refl) as (WU & DU & JU & TU). destruct (OP f g F E) as (G & V). split; [apply ok_cons; auto|]. split; [intros P O; rewrite !defined_cons, DU; reflexivity|]. split.
    + rewrite !disj_cons. intros (A & B). split; [exact (JU A)|]. intros P O H (X & Y). apply (B P O H). split; [exact X|apply DU, Y].
    + intros P O x y H T R. apply takes_cons in T. apply takes_cons. destruct T as [(X & Y)|T]; [left; split; [exact X|exact (V P O x y H Y R)]|right; exact (TU P O x y H T R)].
Qed.

(** ** shared domains *)
Section Shared.
Variables (intersect : set -> set -> res set) (gist : aff -> set -> res aff).
Hypothesis INT : exact_intersect sp intersect.
Hypothesis GIST : keeps_value sp gist.
Variables (fn : aff -> aff -> res aff) (op : num -> num -> num).
Hypothesis OP : op2 sp fn op.
(** [L] consists of the pieces of a function on the common points *)
Definition shares (D1 : list Z -> list Z -> Prop) (T1 : list Z -> list Z -> num -> Prop) (pw2 L : pwaff) : Prop :=
  ok_pw L /\ (forall P O, point P O -> (defined L P O <-> D1 P O /\ defined pw2 P O)) /\ (disj pw2 -> disj L) /\
  forall P O x1 x2, point P O -> T1 P O x1 -> takes pw2 P O x2 -> takes L P O (op x1 x2).
Lemma shared_inner_ok s1 f1 : ok_set s1 -> ok_aff f1 -> forall pw2 acc r, ok_pw pw2 -> shared_inner intersect gist fn s1 f1 pw2 acc = Ok r ->
  exists L, r = acc ++ L /\ shares (fun P O => holds s1 P O) (fun P O x => holds s1 P O /\ is_value f1 P O x) pw2 L.
Proof.
  intros S1 F1. induction pw2 as [|(s2, f2) t IH]; intros acc r W; cbn [shared_inner].
  - intros [= <-]. exists []. split; [rewrite app_nil_r; reflexivity|]. split; [constructor|]. split; [intros P O _; split; [intros A; destruct (defined_nil _ _ A)|intros (_ & A); destruct (defined_nil _ _ A)]|]. split; [auto|]. intros P O x1 x2 _ _ T. destruct (takes_nil _ _ _ T).
  - apply ok_cons in W. destruct W as ((S2 & F2) & W). destruct (intersect s1 s2) as [c| | |] eqn:EC; cbn [LocalModel.bind]; try discriminate. destruct (INT s1 s2 c S1 S2 EC) as (C & QC).
    assert (GEN : forall g, ok_aff g -> (forall P O x1 x2, point P O -> holds c P O -> is_value f1 P O x1 -> is_value f2 P O x2 -> is_value g P O (op x1 x2)) ->
      forall a, shared_inner intersect gist fn s1 f1 t (acc ++ a) = Ok r -> a = single c g -> exists L, r = acc ++ L /\ shares (fun P O => holds s1 P O) (fun P O x => holds s1 P O /\ is_value f1 P O x) ((s2, f2) :: t) L).
    { intros g G V a E EA. destruct (IH _ _ W E) as (L & -> & WL & DL & JL & TL). exists (a ++ L). split; [rewrite app_assoc; reflexivity|]. subst a. split; [apply ok_app; split; [exact (ok_single sp c g C G)|exact WL]|]. split; [|split].
      - intros P O H. rewrite defined_app, defined_single, defined_cons, (DL P O H), (QC P O H). btauto'.
      - intros J. apply disj_cons in J. destruct J as (J & N). apply disj_app. split; [apply disj_single|]. split; [exact (JL J)|]. intros P O H (X & Y). apply defined_single in X. apply (QC P O H) in X. apply (DL P O H) in Y. apply (N P O H). btauto'.
      - intros P O x1 x2 H (X & V1) T. apply takes_app. apply takes_cons in T. destruct T as [(Y & V2)|T]; [left; apply takes_single; assert (HC : holds c P O) by (apply (QC P O H); auto); split; [exact HC|exact (V P O x1 x2 H HC V1 V2)]|right; exact (TL P O x1 x2 H (conj X V1) T)]. }
    destruct (plain_empty c) eqn:EP.
    + intros E. apply (GEN f1 F1) with (a := []); [intros P O x1 x2 H X; destruct (plain_empty_ok c P O EP X)|rewrite app_nil_r; exact E|unfold single, add_piece; rewrite EP; reflexivity].
    + destruct (fn f1 f2) as [f| | |] eqn:EF; cbn [LocalModel.bind]; try discriminate. destruct (gist f c) as [g| | |] eqn:EG; cbn [LocalModel.bind]; try discriminate. destruct (OP f1 f2 f F1 F2 EF) as (F & VF). destruct (GIST f c g F C EG) as (G & VG).
      rewrite add_piece_app. intros E. apply (GEN g G) with (a := single c g); [|exact E|reflexivity]. intros P O x1 x2 H X V1 V2. apply (VG P O _ H X). exact (VF P O x1 x2 H V1 V2).
Qed.
Lemma shared_outer_ok pw2 : ok_pw pw2 -> disj pw2 -> forall pw1 acc r, ok_pw pw1 -> shared_outer intersect gist fn pw1 pw2 acc = Ok r ->
  exists L, r = acc ++ L /\ ok_pw L /\ (forall P O, point P O -> (defined L P O <-> defined pw1 P O /\ defined pw2 P O)) /\ (disj pw1 -> disj L) /\
    forall P O x1 x2, point P O -> takes pw1 P O x1 -> takes pw2 P O x2 -> takes L P O (op x1 x2).
Proof.
  intros W2 J2. induction pw1 as [|(s1, f1) t IH]; intros acc r W; cbn [shared_outer].
  - intros [= <-]. exists []. split; [rewrite app_nil_r; reflexivity|]. split; [constructor|]. split; [intros P O _; split; [intros A; destruct (defined_nil _ _ A)|intros (A & _); destruct (defined_nil _ _ A)]|]. split; [auto|]. intros P O x1 x2 _ T. destruct (takes_nil _ _ _ T).
  - apply ok_cons in W. destruct W as ((S1 & F1) & W). destruct (shared_inner intersect gist fn s1 f1 pw2 acc) as [a| | |] eqn:EI; cbn [LocalModel.bind]; try discriminate. destruct (shared_inner_ok s1 f1 S1 F1 pw2 acc a W2 EI) as (A & -> & WA & DA & JA & TA).
    intros E. destruct (IH _ _ W E) as (L & -> & WL & DL & JL & TL). exists (A ++ L). split; [rewrite app_assoc; reflexivity|]. split; [apply ok_app; auto|]. split; [|split].
    + intros P O H. rewrite defined_app, defined_cons, (DA P O H), (DL P O H). btauto'.
    + intros J. apply disj_cons in J. destruct J as (J & N). apply disj_app. split; [exact (JA J2)|]. split; [exact (JL J)|]. intros P O H (X & Y). apply (DA P O H) in X. apply (DL P O H) in Y. apply (N P O H). btauto'.
    + intros P O x1 x2 H T1 T2. apply takes_app. apply takes_cons in T1. destruct T1 as [T1|T1]; [left; exact (TA P O x1 x2 H T1 T2)|right; exact (TL P O x1 x2 H T1 T2)].
Qed.
Theorem on_shared_ok pw1 pw2 r : wf_pw pw1 -> wf_pw pw2 -> on_shared_domain intersect gist fn pw1 pw2 = Ok r ->
  wf_pw r /\ (forall P O, point P O -> (defined r P O <-> defined pw1 P O /\ defined pw2 P O)) /\
  forall P O x1 x2, point P O -> takes pw1 P O x1 -> takes pw2 P O x2 -> takes r P O (op x1 x2).
Proof.
  intros (W1 & J1) (W2 & J2) E. destruct (shared_outer_ok pw2 W2 J2 pw1 [] r W1 E) as (L & -> & WL & DL & JL & TL). split; [split; [exact WL|exact (JL J1)]|]. split; assumption.
Qed.
End Shared.

(** ** the union of the domains *)
Section Union.
Variables (intersect subtract : set -> set -> res set) (gist : aff -> set -> res aff) (junk : nat -> Z).
Hypothesis INT : exact_intersect sp intersect.
Hypothesis SUB : exact_subtract sp subtract.
Hypothesis GIST : keeps_value sp gist.
Lemma uadd_inner_ok s1 f1 : ok_set s1 -> ok_aff f1 -> forall pw2 rest acc r, ok_pw pw2 -> ok_set rest -> (forall P O, point P O -> holds rest P O -> holds s1 P O) ->
  uadd_inner intersect subtract gist junk s1 f1 pw2 rest acc = Ok r ->
  exists L, r = acc ++ L /\ ok_pw L /\ (forall P O, point P O -> defined L P O -> holds s1 P O /\ (holds rest P O \/ defined pw2 P O)) /\ (disj pw2 -> disj L) /\
    (forall P O x1, point P O -> holds rest P O -> is_value f1 P O x1 -> ~ defined pw2 P O -> takes L P O x1) /\
    (forall P O x1 x2, point P O -> holds s1 P O -> is_value f1 P O x1 -> takes pw2 P O x2 -> takes L P O (lift2 Qplus x1 x2)).
Proof.
  intros S1 F1. induction pw2 as [|(s2, f2) t IH]; intros rest acc r W R RS; cbn [uadd_inner].
  - intros [= <-]. exists (single rest f1). split; [apply add_piece_app|]. split; [exact (ok_single sp rest f1 R F1)|]. split; [intros P O H D; apply defined_single in D; auto|]. split; [intros _; apply disj_single|]. split.
    + intros P O x1 H X V _. apply takes_single. auto.
    + intros P O x1 x2 _ _ _ T. destruct (takes_nil _ _ _ T).
  - apply ok_cons in W. destruct W as ((S2 & F2) & W). destruct (intersect s1 s2) as [c| | |] eqn:EC; cbn [LocalModel.bind]; try discriminate. destruct (INT s1 s2 c S1 S2 EC) as (C & QC).
    destruct (plain_empty c) eqn:EP.
    + intros E. destruct (IH rest acc r W R RS E) as (L & -> & WL & DL & JL & TL1 & TL2). exists L. split; [reflexivity|]. split; [exact WL|]. assert (NC : forall P O, point P O -> holds s1 P O -> holds s2 P O -> False) by (intros P O H A B; apply (plain_empty_ok c P O EP), (QC P O H); auto). split; [|split; [|split]].
      * intros P O H D. destruct (DL P O H D) as (A & [B|B]); (split; [exact A|]); [left; exact B|right; apply defined_cons; right; exact B].
      * intros J. apply disj_cons in J. exact (JL (proj1 J)).
      * intros P O x1 H X V N. apply (TL1 P O x1 H X V). intros D. apply N, defined_cons. right. exact D.
      * intros P O x1 x2 H X V T. apply takes_cons in T. destruct T as [(Y & _)|T]; [destruct (NC P O H X Y)|exact (TL2 P O x1 x2 H X V T)].
    + destruct (subtract rest s2) as [rest'| | |] eqn:ES; cbn [LocalModel.bind]; try discriminate. destruct (SUB rest s2 rest' R S2 ES) as (R' & QR).
      destruct (aff_add junk f1 f2) as [f| | |] eqn:EF; cbn [LocalModel.bind]; try discriminate. destruct (gist f c) as [g| | |] eqn:EG; cbn [LocalModel.bind]; try discriminate. destruct (add_op2 sp junk f1 f2 f F1 F2 EF) as (F & VF). destruct (GIST f c g F C EG) as (G & VG).
      rewrite add_piece_app. intros E. destruct (IH rest' (acc ++ single c g) r W R' (fun P O H X => RS P O H (proj1 (proj1 (QR P O H) X))) E) as (L & -> & WL & DL & JL & TL1 & TL2). exists (single c g ++ L). split; [rewrite app_assoc; reflexivity|]. split; [apply ok_app; split; [exact (ok_single sp c g C G)|exact WL]|]. split; [|split; [|split]].
      * intros P O H D. apply defined_app in D. destruct D as [D|D]; [apply defined_single, (QC P O H) in D; split; [apply D|right; apply defined_cons; left; apply D]|]. destruct (DL P O H D) as (A & [B|B]); (split; [exact A|]); [left; apply (QR P O H), B|right; apply defined_cons; right; exact B].
      * intros J. apply disj_cons in J. destruct J as (J & N). apply disj_app. split; [apply disj_single|]. split; [exact (JL J)|]. intros P O H (X & Y). apply defined_single, (QC P O H) in X. destruct (DL P O H Y) as (A & [B|B]); [apply (QR P O H) in B; btauto'|apply (N P O H); btauto'].
      * intros P O x1 H X V N. apply takes_app. right. apply (TL1 P O x1 H); [apply (QR P O H); split; [exact X|intros Y; apply N, defined_cons; left; exact Y]|exact V|intros Y; apply N, defined_cons; right; exact Y].
      * intros P O x1 x2 H X V T. apply takes_app. apply takes_cons in T. destruct T as [(Y & V2)|T]; [left; apply takes_single; assert (HC : holds c P O) by (apply (QC P O H); auto); split; [exact HC|apply (VG P O _ H HC); exact (VF P O x1 x2 H V V2)]|right; exact (TL2 P O x1 x2 H X V T)].
Qed.
Lemma uadd_outer_ok pw2 : ok_pw pw2 -> disj pw2 -> forall pw1 acc r, ok_pw pw1 -> uadd_outer intersect subtract gist junk pw1 pw2 acc = Ok r ->
  exists L, r = acc ++ L /\ ok_pw L /\ (forall P O, point P O -> defined L P O -> defined pw1 P O) /\ (disj pw1 -> disj L) /\
    (forall P O x1, point P O -> takes pw1 P O x1 -> ~ defined pw2 P O -> takes L P O x1) /\
    (forall P O x1 x2, point P O -> takes pw1 P O x1 -> takes pw2 P O x2 -> takes L P O (lift2 Qplus x1 x2)).
Proof.
  intros W2 J2. induction pw1 as [|(s1, f1) t IH]; intros acc r W; cbn [uadd_outer].
  - intros [= <-]. exists []. split; [rewrite app_nil_r; reflexivity|]. split; [constructor|]. split; [auto|]. split; [auto|]. split; intros; [destruct (takes_nil _ _ _ H0)|destruct (takes_nil _ _ _ H0)].
  - apply ok_cons in W. destruct W as ((S1 & F1) & W). destruct (uadd_inner intersect subtract gist junk s1 f1 pw2 s1 acc) as [a| | |] eqn:EI; cbn [LocalModel.bind]; try discriminate. destruct (uadd_inner_ok s1 f1 S1 F1 pw2 s1 acc a W2 S1 (fun _ _ _ X => X) EI) as (A & -> & WA & DA & JA & TA1 & TA2).
    intros E. destruct (IH _ _ W E) as (L & -> & WL & DL & JL & TL1 & TL2). exists (A ++ L). split; [rewrite app_assoc; reflexivity|]. split; [apply ok_app; auto|]. split; [|split; [|split]].
    + intros P O H D. apply defined_cons. apply defined_app in D. destruct D as [D|D]; [left; apply (DA P O H D)|right; exact (DL P O H D)].
    + intros J. apply disj_cons in J. destruct J as (J & N). apply disj_app. split; [exact (JA J2)|]. split; [exact (JL J)|]. intros P O H (X & Y). apply (N P O H). split; [apply (DA P O H X)|exact (DL P O H Y)].
    + intros P O x1 H T N. apply takes_app. apply takes_cons in T. destruct T as [(X & V)|T]; [left; exact (TA1 P O x1 H X V N)|right; exact (TL1 P O x1 H T N)].
    + intros P O x1 x2 H T T2. apply takes_app. apply takes_cons in T. destruct T as [(X & V)|T]; [left; exact (TA2 P O x1 x2 H X V T2)|right; exact (TL2 P O x1 x2 H T T2)].
Qed.
Lemma subtract_all_ok pw : forall s r, ok_pw pw -> ok_set s -> subtract_all subtract s pw = Ok r -> ok_set r /\ forall P O, point P O -> (holds r P O <-> holds s P O /\ ~ defined pw P O).
Proof.
  induction pw as [|(s1, f1) t IH]; intros s r W S; cbn [subtract_all].
  - intros [= <-]. split; [exact S|]. intros P O _. split; [intros X; split; [exact X|apply defined_nil]|btauto'].
  - apply ok_cons in W. destruct W as ((S1 & F1) & W). destruct (subtract s s1) as [u| | |] eqn:E; cbn [LocalModel.bind]; try discriminate. destruct (SUB s s1 u S S1 E) as (U & Q). intros E'. destruct (IH u r W U E') as (R & QR). split; [exact R|]. intros P O H. rewrite (QR P O H), (Q P O H), defined_cons. btauto'.
Qed.
Lemma uadd_rest_ok pw1 : ok_pw pw1 -> forall pw2 acc r, ok_pw pw2 -> uadd_rest subtract pw1 pw2 acc = Ok r ->
  exists L, r = acc ++ L /\ ok_pw L /\ (forall P O, point P O -> (defined L P O <-> defined pw2 P O /\ ~ defined pw1 P O)) /\ (disj pw2 -> disj L) /\
    (forall P O x, point P O -> takes pw2 P O x -> ~ defined pw1 P O -> takes L P O x).
Proof.
  intros W1. induction pw2 as [|(s2, f2) t IH]; intros acc r W; cbn [uadd_rest].
  - intros [= <-]. exists []. split; [rewrite app_nil_r; reflexivity|]. split; [constructor|]. split; [intros P O _; split; [intros X; destruct (defined_nil _ _ X)|btauto']|]. split; [auto|]. intros P O x _ T. destruct (takes_nil _ _ _ T).
  - apply ok_cons in W. destruct W as ((S2 & F2) & W). destruct (subtract_all subtract s2 pw1) as [s| | |] eqn:ES; cbn [LocalModel.bind]; try discriminate. destruct (subtract_all_ok pw1 s2 s W1 S2 ES) as (S & Q). rewrite add_piece_app. intros E. destruct (IH _ _ W E) as (L & -> & WL & DL & JL & TL). exists (single s f2 ++ L). split; [rewrite app_assoc; reflexivity|]. split; [apply ok_app; split; [exact (ok_single sp s f2 S F2)|exact WL]|]. split; [|split].
    + intros P O H. rewrite defined_app, defined_single, defined_cons, (DL P O H), (Q P O H). btauto'.
    + intros J. apply disj_cons in J. destruct J as (J & N). apply disj_app. split; [apply disj_single|]. split; [exact (JL J)|]. intros P O H (X & Y). apply defined_single, (Q P O H) in X. apply (DL P O H) in Y. apply (N P O H). btauto'.
    + intros P O x H T U. apply takes_app. apply takes_cons in T. destruct T as [(X & V)|T]; [left; apply takes_single; split; [apply (Q P O H); auto|exact V]|right; exact (TL P O x H T U)].
Qed.
Theorem union_add_ok pw1 pw2 r : wf_pw pw1 -> wf_pw pw2 -> union_add intersect subtract gist junk pw1 pw2 = Ok r ->
  wf_pw r /\ (forall P O, point P O -> defined r P O -> defined pw1 P O \/ defined pw2 P O) /\
  (forall P O x1 x2, point P O -> takes pw1 P O x1 -> takes pw2 P O x2 -> takes r P O (lift2 Qplus x1 x2)) /\
  (forall P O x, point P O -> takes pw1 P O x -> ~ defined pw2 P O -> takes r P O x) /\
  (forall P O x, point P O -> takes pw2 P O x -> ~ defined pw1 P O -> takes r P O x).
Proof.
  intros (W1 & J1) (W2 & J2) E.
  assert (GEN : forall L1 L2, r = L1 ++ L2 -> ok_pw L1 -> ok_pw L2 -> disj L1 -> disj L2 -> (forall P O, point P O -> defined L1 P O -> defined pw1 P O) -> (forall P O, point P O -> (defined L2 P O <-> defined pw2 P O /\ ~ defined pw1 P O)) ->
    (forall P O x1 x2, point P O -> takes pw1 P O x1 -> takes pw2 P O x2 -> takes L1 P O (lift2 Qplus x1 x2)) -> (forall P O x, point P O -> takes pw1 P O x -> ~ defined pw2 P O -> takes L1 P O x) -> (forall P O x, point P O -> takes pw2 P O x -> ~ defined pw1 P O -> takes L2 P O x) ->
    wf_pw r /\ (forall P O, point P O -> defined r P O -> defined pw1 P O \/ defined pw2 P O) /\ (forall P O x1 x2, point P O -> takes pw1 P O x1 -> takes pw2 P O x2 -> takes r P O (lift2 Qplus x1 x2)) /\ (forall P O x, point P O -> takes pw1 P O x -> ~ defined pw2 P O -> takes r P O x) /\ (forall P O x, point P O -> takes pw2 P O x -> ~ defined pw1 P O -> takes r P O x)).
  { intros L1 L2 -> O1 O2 D1 D2 A B C D F. split; [split; [apply ok_app; auto|apply disj_app; split; [exact D1|]; split; [exact D2|]; intros P O H (X & Y); apply (B P O H) in Y; apply Y, (A P O H X)]|]. split; [intros P O H X; apply defined_app in X; destruct X as [X|X]; [left; exact (A P O H X)|right; apply (B P O H), X]|]. split; [intros P O x1 x2 H T1 T2; apply takes_app; left; exact (C P O x1 x2 H T1 T2)|]. split; [intros P O x H T N; apply takes_app; left; exact (D P O x H T N)|intros P O x H T N; apply takes_app; right; exact (F P O x H T N)]. }
  unfold union_add in E. destruct pw1 as [|p1 t1]; [|destruct pw2 as [|p2 t2]].
  - injection E as <-. apply (GEN [] pw2); auto; try (constructor; fail); try (intros; exfalso; eapply defined_nil; eassumption); try (intros; exfalso; eapply takes_nil; eassumption). intros P O _. pose proof (defined_nil P O). btauto'.
  - injection E as <-. apply (GEN (p1 :: t1) []); auto; try (constructor; fail); try (rewrite app_nil_r; reflexivity); try (intros; exfalso; eapply takes_nil; eassumption). intros P O _. pose proof (defined_nil P O). btauto'.
  - destruct (uadd_outer intersect subtract gist junk (p1 :: t1) (p2 :: t2) []) as [a| | |] eqn:EO; cbn [LocalModel.bind] in E; try discriminate. destruct (uadd_outer_ok _ W2 J2 _ [] a W1 EO) as (L1 & -> & O1 & D1 & JL1 & T1 & T2). destruct (uadd_rest_ok _ W1 _ _ r W2 E) as (L2 & -> & O2 & D2 & JL2 & T3). apply (GEN L1 L2); auto.
Qed.
End Union.

(** ** disjoint domains *)
Lemma append_pieces_app pw2 : forall pw1, exists L, append_pieces pw1 pw2 = pw1 ++ L /\ (ok_pw pw2 -> ok_pw L) /\ (disj pw2 -> disj L) /\ (forall P O, defined L P O <-> defined pw2 P O) /\ forall P O x, takes L P O x <-> takes pw2 P O x.
Proof.
  induction pw2 as [|(s, f) t IH]; intros pw1; unfold append_pieces; cbn [fold_left].
  - exists []. split; [rewrite app_nil_r; reflexivity|]. split; [auto|]. split; [auto|]. split; reflexivity.
  - cbn [fst snd]. rewrite add_piece_app. destruct (IH (pw1 ++ single s f)) as (L & E & A & B & C & D). unfold append_pieces in E. rewrite E. exists (single s f ++ L). split; [rewrite app_assoc; reflexivity|]. split; [|split; [|split]].
    + intros W. apply ok_cons in W. destruct W as ((S & F) & W). apply ok_app. split; [exact (ok_single sp s f S F)|exact (A W)].
    + intros J. apply disj_cons in J. destruct J as (J & N). apply disj_app. split; [apply disj_single|]. split; [exact (B J)|]. intros P O H (X & Y). apply (N P O H). split; [apply defined_single in X; exact X|apply C, Y].
    + intros P O. rewrite defined_app, defined_single, defined_cons, C. reflexivity.
    + intros P O x. rewrite takes_app, takes_single, takes_cons, D. reflexivity.
Qed.
Theorem add_disjoint_ok full pw1 pw2 : wf_pw pw1 -> wf_pw pw2 -> (forall P O, point P O -> ~ (defined pw1 P O /\ defined pw2 P O)) ->
  wf_pw (add_disjoint full pw1 pw2) /\ forall P O, point P O -> (defined (add_disjoint full pw1 pw2) P O <-> defined pw1 P O \/ defined pw2 P O) /\ forall x, takes (add_disjoint full pw1 pw2) P O x <-> takes pw1 P O x \/ takes pw2 P O x.
Proof.
  intros (W1 & J1) (W2 & J2) N.
  assert (GEN : forall a b, ok_pw a -> ok_pw b -> disj a -> disj b -> (forall P O, point P O -> ~ (defined a P O /\ defined b P O)) ->
    forall r, r = match a, b with [], _ => b | _, [] => a | _, _ => append_pieces a b end -> wf_pw r /\ forall P O, point P O -> (defined r P O <-> defined a P O \/ defined b P O) /\ forall x, takes r P O x <-> takes a P O x \/ takes b P O x).
  { intros a b Wa Wb Ja Jb Nb r ->. destruct a as [|p a]; [split; [split; assumption|]; intros P O _; pose proof (defined_nil P O); pose proof (takes_nil P O); split; [btauto'|intros x; specialize (H0 x); btauto']|]. destruct b as [|q b]; [split; [split; assumption|]; intros P O _; pose proof (defined_nil P O); pose proof (takes_nil P O); split; [btauto'|intros x; specialize (H0 x); btauto']|].
    destruct (append_pieces_app (q :: b) (p :: a)) as (L & -> & A & B & C & D). split; [split; [apply ok_app; auto|apply disj_app; split; [exact Ja|]; split; [exact (B Jb)|]; intros P O H (X & Y); apply (Nb P O H); split; [exact X|apply C, Y]]|]. intros P O _. split; [rewrite defined_app, C; reflexivity|intros x; rewrite takes_app, D; reflexivity]. }
  unfold add_disjoint. destruct (full pw1 pw2 && _).
  - destruct (GEN pw2 pw1 W2 W1 J2 J1 (fun P O H X => N P O H (conj (proj2 X) (proj1 X))) _ eq_refl) as (A & B). split; [exact A|]. intros P O H. destruct (B P O H) as (C & D). split; [rewrite C; btauto'|intros x; rewrite D; btauto'].
  - exact (GEN pw1 pw2 W1 W2 J1 J2 N _ eq_refl).
Qed.

(** ** restricted domains *)
Section Restrict.
Variables (subst_hull : aff -> set -> res aff) (fn : set -> res set) (keep : list Z -> list Z -> Prop).
Hypothesis SUBST : keeps_value sp subst_hull.
Hypothesis FN : forall s s', ok_set s -> fn s = Ok s' -> ok_set s' /\ forall P O, point P O -> (holds s' P O <-> holds s P O /\ keep P O).
Lemma firstn_snoc {A} (a : list A) x b : firstn (length a) (a ++ x :: b) = a.
Proof. rewrite firstn_app, Nat.sub_diag, firstn_all. cbn [firstn]. apply app_nil_r. Qed.
Lemma replace_snoc A p0 B p : replace (A ++ p0 :: B) (length A) p = A ++ p :: B.
Proof. unfold replace. rewrite firstn_snoc. f_equal. cbn [app]. f_equal. replace (S (length A)) with (length (A ++ [p0])) by (rewrite app_length; cbn; lia). replace (A ++ p0 :: B) with ((A ++ [p0]) ++ B) by (rewrite <- app_assoc; reflexivity). rewrite skipn_app, Nat.sub_diag, skipn_all. reflexivity. Qed.
Lemma restrict_loop_ok : forall i A B r, length A = i -> ok_pw A -> restrict_loop subst_hull fn i (A ++ B) = Ok r ->
  exists A', Permutation r (A' ++ B) /\ ok_pw A' /\ (disj A -> disj A') /\ (forall P O, point P O -> (defined A' P O <-> defined A P O /\ keep P O)) /\
    forall P O x, point P O -> takes A P O x -> keep P O -> takes A' P O x.
Proof.
  induction i as [|i IH]; intros A B r L W; cbn [restrict_loop].
  - destruct A; [|discriminate L]. cbn [app]. intros [= <-]. exists []. split; [reflexivity|]. split; [constructor|]. split; [auto|]. split; [intros P O _; pose proof (defined_nil P O); btauto'|intros P O x _ T; destruct (takes_nil _ _ _ T)].
  - destruct (exists_last (l := A)) as (A0 & (s, f) & ->); [intros ->; discriminate L|]. rewrite app_length in L. cbn in L. assert (LA : length A0 = i) by lia. rewrite <- app_assoc. cbn [app]. rewrite nth_error_app2 by lia. rewrite LA, Nat.sub_diag. cbn [nth_error].
    destruct (fn s) as [s'| | |] eqn:EF; cbn [LocalModel.bind]; try discriminate. apply ok_app in W. destruct W as (W & WS). apply ok_cons in WS. destruct WS as ((S & F) & _). destruct (FN s s' S EF) as (S' & Q).
    assert (GEN : forall B' f', Permutation B' (single s' f' ++ B) -> ok_aff f' -> (forall P O x, point P O -> holds s' P O -> is_value f P O x -> is_value f' P O x) -> restrict_loop subst_hull fn i (A0 ++ B') = Ok r ->
      exists A', Permutation r (A' ++ B) /\ ok_pw A' /\ (disj (A0 ++ [(s, f)]) -> disj A') /\ (forall P O, point P O -> (defined A' P O <-> defined (A0 ++ [(s, f)]) P O /\ keep P O)) /\ forall P O x, point P O -> takes (A0 ++ [(s, f)]) P O x -> keep P O -> takes A' P O x).
    { intros B' f' PB F' V E. destruct (IH A0 B' r LA W E) as (A' & PA & WA & JA & DA & TA). exists (A' ++ single s' f'). split; [rewrite PA, PB, app_assoc; reflexivity|]. split; [apply ok_app; split; [exact WA|exact (ok_single sp s' f' S' F')]|]. split; [|split].
      - intros J. apply disj_app in J. destruct J as (J & _ & N). apply disj_app. split; [exact (JA J)|]. split; [apply disj_single|]. intros P O H (X & Y). apply defined_single, (Q P O H) in Y. apply (DA P O H) in X. apply (N P O H). split; [apply X|apply defined_cons; left; apply Y].
      - intros P O H. rewrite !defined_app, defined_single, defined_cons, (DA P O H), (Q P O H). pose proof (defined_nil P O). btauto'.
      - intros P O x H T K. apply takes_app. apply takes_app in T. destruct T as [T|T]; [left; exact (TA P O x H T K)|]. apply takes_cons in T. destruct T as [(X & Y)|T]; [|destruct (takes_nil _ _ _ T)]. right. apply takes_single. assert (HS : holds s' P O) by (apply (Q P O H); auto). split; [exact HS|exact (V P O x H HS Y)]. }
    unfold exploit_or_remove. destruct (plain_empty s') eqn:EP.
    + assert (VE : forall P O x, point P O -> holds s' P O -> is_value f P O x -> is_value f P O x) by auto.
      assert (SE : single s' f = []) by (unfold single, add_piece; rewrite EP; reflexivity).
      cbv zeta. match goal with |- context[Nat.eqb i ?n] => destruct (Nat.eqb_spec i n) as [EI|NI] end; cbn [LocalModel.bind]; rewrite app_length in *; cbn [length] in *.
      * assert (B = []) as -> by (destruct B; [reflexivity|cbn [length] in EI; lia]). rewrite removelast_last. intros E. apply (GEN [] f); [rewrite SE; reflexivity|exact F|exact VE|rewrite app_nil_r; exact E].
      * destruct (exists_last (l := B)) as (B0 & q & EB); [intros ->; cbn in NI; lia|]. subst B. rewrite <- LA. rewrite replace_snoc. intros E. apply (GEN (q :: B0) f); [rewrite SE; cbn [app]; apply Permutation_cons_append|exact F|exact VE|].
        assert (EL : last (A0 ++ (s, f) :: B0 ++ [q]) (s', f) = q) by (change (A0 ++ (s, f) :: B0 ++ [q]) with (A0 ++ ((s, f) :: B0) ++ [q]); rewrite app_assoc; apply last_last).
        match type of E with context[last ?l ?d] => replace (last l d) with q in E by (symmetry; exact EL) end.
        assert (ER : removelast (A0 ++ q :: B0 ++ [q]) = A0 ++ q :: B0) by (change (A0 ++ q :: B0 ++ [q]) with (A0 ++ (q :: B0) ++ [q]); rewrite app_assoc; apply removelast_last).
        match type of E with context[removelast ?l] => replace (removelast l) with (A0 ++ q :: B0) in E by (symmetry; exact ER) end. rewrite LA in E. exact E.
    + destruct (subst_hull f s') as [f'| | |] eqn:ESU; cbn [LocalModel.bind]; try discriminate. destruct (SUBST f s' f' F S' ESU) as (F' & V). rewrite <- LA, replace_snoc, LA. intros E. apply (GEN ((s', f') :: B) f'); [unfold single, add_piece; rewrite EP; reflexivity|exact F'|exact V|exact E].
Qed.
Lemma restrict_ok pw r : wf_pw pw -> restrict_loop subst_hull fn (length pw) pw = Ok r ->
  wf_pw r /\ forall P O, point P O -> (defined r P O <-> defined pw P O /\ keep P O) /\ forall x, takes pw P O x -> keep P O -> takes r P O x.
Proof.
  intros (W & J) E. rewrite <- (app_nil_r pw) in E at 2. destruct (restrict_loop_ok (length pw) pw [] r eq_refl W E) as (A & PA & WA & JA & DA & TA). rewrite app_nil_r in PA. pose proof (Permutation_sym PA) as PS. split; [split; [exact (ok_perm sp _ _ PS WA)|exact (disj_perm sp _ _ PS (JA J))]|].
  intros P O H. split; [rewrite <- (DA P O H); split; apply defined_perm; assumption|]. intros x T K. exact (takes_perm _ _ _ _ _ PS (TA P O x H T K)).
Qed.
End Restrict.
Theorem intersect_domain_ok intersect subst_hull pw c r : exact_intersect sp intersect -> keeps_value sp subst_hull -> wf_pw pw -> ok_set c -> intersect_domain intersect subst_hull pw c = Ok r ->
  wf_pw r /\ forall P O, point P O -> (defined r P O <-> defined pw P O /\ holds c P O) /\ forall x, takes pw P O x -> holds c P O -> takes r P O x.
Proof. intros I S W C E. refine (restrict_ok subst_hull (fun s => intersect s c) (fun P O => holds c P O) S _ pw r W E). intros s s' HS EI. exact (I s c s' HS C EI). Qed.
Theorem subtract_domain_ok subtract subst_hull pw c r : exact_subtract sp subtract -> keeps_value sp subst_hull -> wf_pw pw -> ok_set c -> subtract_domain subtract subst_hull pw c = Ok r ->
  wf_pw r /\ forall P O, point P O -> (defined r P O <-> defined pw P O /\ ~ holds c P O) /\ forall x, takes pw P O x -> ~ holds c P O -> takes r P O x.
Proof. intros I S W C E. refine (restrict_ok subst_hull (fun s => subtract s c) (fun P O => ~ holds c P O) S _ pw r W E). intros s s' HS EI. exact (I s c s' HS C EI). Qed.

(** ** pieces with the same expression *)
Definition keeps_pw (pw r : pwaff) : Prop := (ok_pw pw -> ok_pw r) /\ (disj pw -> disj r) /\ same_function sp pw r.
Lemma same_function_refl pw : same_function sp pw pw.
Proof. intros P O H. split; reflexivity. Qed.
Lemma same_function_trans a b c : same_function sp a b -> same_function sp b c -> same_function sp a c.
Proof. intros A B P O H. destruct (A P O H) as (A1 & A2). destruct (B P O H) as (B1 & B2). split; [rewrite A1; exact B1|intros x; rewrite A2; apply B2]. Qed.
Lemma same_function_sym a b : same_function sp a b -> same_function sp b a.
Proof. intros A P O H. destruct (A P O H) as (A1 & A2). split; [symmetry; exact A1|intros x; symmetry; apply A2]. Qed.
Lemma same_function_perm a b : Permutation a b -> same_function sp a b.
Proof. intros E P O H. split; [split; apply defined_perm; [exact E|exact (Permutation_sym E)]|intros x; split; apply takes_perm; [exact E|exact (Permutation_sym E)]]. Qed.
Section Unique.
Variables (union : set -> set -> res set) (sort : pwaff -> pwaff).
Hypothesis UN : exact_union sp union.
Hypothesis SORT : forall l, Permutation l (sort l).
Lemma equal_values f g P O x : ok_aff f -> ok_aff g -> aff_plain_is_equal f g = true -> (is_value f P O x <-> is_value g P O x).
Proof.
  intros (A & _) (B & _) E. destruct A as [A|A]; [|rewrite plain_equal_nan in E by (left; exact A); discriminate]. destruct B as [B|B]; [|rewrite plain_equal_nan in E by (right; exact B); discriminate]. pose proof (plain_equal_sound f g A B E) as V. destruct x as [|q]; cbn; [split; intros N; [destruct (nan_not_wf _ A N)|destruct (nan_not_wf _ B N)]|]. specialize (V (1 :: P ++ O) q). btauto'.
Qed.
Lemma split_two (pw : pwaff) i p q : nth_error pw i = Some p -> nth_error pw (S i) = Some q -> pw = firstn i pw ++ p :: q :: skipn (S (S i)) pw.
Proof. revert i. induction pw as [|a t IH]; intros [|i]; try discriminate; cbn [nth_error]; [intros [= ->]; destruct t as [|b t]; [discriminate|]; intros [= ->]; reflexivity|]. intros A B. cbn [firstn skipn app]. f_equal. apply IH; assumption. Qed.
Lemma unique_loop_ok : forall i pw r, ok_pw pw -> unique_loop union i pw = Ok r -> ok_pw r /\ (disj pw -> disj r) /\ same_function sp pw r.
Proof.
  induction i as [|i IH]; intros pw r W; cbn [unique_loop].
  - intros [= <-]. split; [exact W|]. split; [auto|apply same_function_refl].
  - destruct (nth_error pw i) as [(s0, f0)|] eqn:E0; [|discriminate]. destruct (nth_error pw (S i)) as [(s, f)|] eqn:E1; [|discriminate]. destruct (aff_plain_is_equal f f0) eqn:EQ; [|exact (IH pw r W)].
    destruct (union s0 s) as [u| | |] eqn:EU; cbn [LocalModel.bind]; try discriminate. intros E. pose proof (split_two pw i _ _ E0 E1) as SP. remember (firstn i pw) as A. remember (skipn (S (S i)) pw) as B. clear HeqA HeqB. subst pw.
    apply ok_app in W. destruct W as (WA & W). apply ok_cons in W. destruct W as ((S0 & F0) & W). apply ok_cons in W. destruct W as ((S1 & F1) & WB). destruct (UN s0 s u S0 S1 EU) as (U & Q).
    destruct (IH (A ++ (u, f0) :: B) r) as (WR & JR & SF); [apply ok_app; split; [exact WA|apply ok_cons; auto]|exact E|]. split; [exact WR|].
    assert (DF : forall P O, point P O -> (defined (A ++ (u, f0) :: B) P O <-> defined (A ++ (s0, f0) :: (s, f) :: B) P O)) by (intros P O H; rewrite !defined_app, !defined_cons, (Q P O H); btauto').
    split.
    + intros J. apply JR. apply disj_app in J. destruct J as (JA & J & N). apply disj_cons in J. destruct J as (J & N0). apply disj_cons in J. destruct J as (J & N1). apply disj_app. split; [exact JA|]. split.
      * apply disj_cons. split; [exact J|]. intros P O H (X & Y). apply (Q P O H) in X. destruct X as [X|X]; [apply (N0 P O H); split; [exact X|apply defined_cons; right; exact Y]|exact (N1 P O H (conj X Y))].
      * intros P O H (X & Y). apply (N P O H). split; [exact X|]. rewrite defined_cons in Y. rewrite (Q P O H) in Y. rewrite !defined_cons. btauto'.
    + refine (same_function_trans _ _ _ _ SF). intros P O H. split; [symmetry; exact (DF P O H)|]. intros x. rewrite !takes_app, !takes_cons, (Q P O H), (equal_values f f0 P O x F1 F0 EQ). btauto'.
Qed.
Lemma sort_unique_ok pw r : wf_pw pw -> sort_unique union sort pw = Ok r -> wf_pw r /\ same_function sp pw r.
Proof.
  intros (W & J). unfold sort_unique. destruct (Nat.leb (length pw) 1); [intros [= <-]; split; [split; assumption|apply same_function_refl]|]. intros E. destruct (unique_loop_ok _ _ _ (ok_perm sp _ _ (SORT pw) W) E) as (WR & JR & SF). split; [split; [exact WR|exact (JR (disj_perm sp _ _ (SORT pw) J))]|]. exact (same_function_trans _ _ _ (same_function_perm _ _ (SORT pw)) SF).
Qed.
Lemma each_set_ok fn : keeps_set sp fn -> forall pw r, ok_pw pw -> each_set fn pw = Ok r -> ok_pw r /\ (disj pw -> disj r) /\ same_function sp pw r.
Proof.
  intros K. induction pw as [|(s, f) t IH]; intros r W; cbn [each_set]; [intros [= <-]; split; [exact W|]; split; [auto|apply same_function_refl]|].
  apply ok_cons in W. destruct W as ((S & F) & W). destruct (fn s) as [s'| | |] eqn:E; cbn [LocalModel.bind]; try discriminate. destruct (each_set fn t) as [u| | |] eqn:EU; cbn [LocalModel.bind]; try discriminate. intros [= <-]. destruct (K s s' S E) as (S' & Q). destruct (IH u W eq_refl) as (WU & JU & SU). split; [apply ok_cons; auto|]. split.
  - rewrite !disj_cons. intros (A & B). split; [exact (JU A)|]. intros P O H (X & Y). apply (B P O H). split; [apply (Q P O H), X|apply (SU P O H), Y].
  - intros P O H. destruct (SU P O H) as (A & B). split; [rewrite !defined_cons, A, (Q P O H); reflexivity|intros x; rewrite !takes_cons, B, (Q P O H); reflexivity].
Qed.
Theorem each_unique_ok fn pw r : keeps_set sp fn -> wf_pw pw -> (let! pw := sort_unique union sort pw in each_set fn pw) = Ok r -> wf_pw r /\ same_function sp pw r.
Proof.
  intros K W. destruct (sort_unique union sort pw) as [u| | |] eqn:E; cbn [LocalModel.bind]; try discriminate. intros E'. destruct (sort_unique_ok pw u W E) as ((WU & JU) & SU). destruct (each_set_ok fn K u r WU E') as (WR & JR & SR). split; [split; [exact WR|exact (JR JU)]|exact (same_function_trans _ _ _ SU SR)].
Qed.
Lemma equal_pieces_ok plain_equal : sound_equal sp plain_equal -> forall pw1 pw2, ok_pw pw1 -> ok_pw pw2 -> length pw1 = length pw2 -> equal_pieces plain_equal pw1 pw2 = Ok true -> same_function sp pw1 pw2.
Proof.
  intros SE. induction pw1 as [|(s1, f1) t1 IH]; intros [|(s2, f2) t2] W1 W2 L; try discriminate L; cbn [equal_pieces]; [intros _; apply same_function_refl|]. apply ok_cons in W1. destruct W1 as ((S1 & F1) & W1). apply ok_cons in W2. destruct W2 as ((S2 & F2) & W2). destruct (plain_equal s1 s2) as [e| | |] eqn:E; cbn [LocalModel.bind]; try discriminate. destruct e; [|discriminate]. destruct (aff_plain_is_equal f1 f2) eqn:EF; [|discriminate]. intros EE.
  pose proof (IH t2 W1 W2 ltac:(injection L; auto) EE) as SF. intros P O H. destruct (SF P O H) as (A & B). pose proof (SE s1 s2 S1 S2 E P O H) as Q. split; [rewrite !defined_cons, A, Q; reflexivity|]. intros x. rewrite !takes_cons, B, Q, (equal_values f1 f2 P O x F1 F2 EF). reflexivity.
Qed.
Theorem pw_plain_equal_ok normalize plain_equal pw1 pw2 : keeps_set sp normalize -> sound_equal sp plain_equal -> wf_pw pw1 -> wf_pw pw2 -> pw_plain_equal union sort normalize plain_equal pw1 pw2 = Ok true -> same_function sp pw1 pw2.
Proof.
  intros K SE W1 W2. unfold pw_plain_equal. destruct (_ || _); [discriminate|]. unfold pw_normalize. destruct (let! pw := sort_unique union sort pw1 in each_set normalize pw) as [u1| | |] eqn:E1; cbn [LocalModel.bind]; try discriminate. destruct (let! pw := sort_unique union sort pw2 in each_set normalize pw) as [u2| | |] eqn:E2; cbn [LocalModel.bind]; try discriminate.
  destruct (each_unique_ok normalize pw1 u1 K W1 E1) as ((O1 & _) & S1). destruct (each_unique_ok normalize pw2 u2 K W2 E2) as ((O2 & _) & S2). destruct (Nat.eqb_spec (length u1) (length u2)) as [L|]; cbn [negb]; [|discriminate]. intros E. exact (same_function_trans _ _ _ S1 (same_function_trans _ _ _ (equal_pieces_ok plain_equal SE u1 u2 O1 O2 L E) (same_function_sym _ _ S2))).
Qed.
End Unique.
End Ops.
