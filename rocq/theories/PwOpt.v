(** The better one of two piecewise expressions. *)
From Coq Require Import ZArith List Bool QArith Arith Lia Permutation ZifyBool Lqa.
From Verif Require Import SeqSpec SeqModel MatModel BMapModel LocalModel SimpModel SetModel SpaceModel SetBase SetSpec SetOps SetMaps AffModel AffSpec AffProofs PwModel PwSpec PwBase PwOps PwSets.
Import ListNotations.
Open Scope Z_scope.
Ltac btauto' := cbv beta in *; tauto.

Section Opt.
Variable sp : space.
Hypothesis SET : is_set sp = true.
Notation point := (point sp).
Notation ok_set := (ok_set sp).
Notation ok_aff := (ok_aff sp).
Notation ok_pw := (ok_pw sp).
Notation disj := (disjoint_pieces sp).
Notation wf_pw := (wf_pw sp).
Variables (intersect subtract union : set -> set -> res set) (is_disjoint is_subset : set -> set -> res bool) (is_empty : set -> bool) (acmp : aff -> aff -> Z).
Hypothesis INT : exact_intersect sp intersect.
Hypothesis SUB : exact_subtract sp subtract.
Hypothesis UNI : exact_union sp union.
Hypothesis DIS : sound_disjoint sp is_disjoint.
Hypothesis CMP : sound_cmp sp acmp.
(** the comparison of values *)
Variable rel : Q -> Q -> Prop.
Hypothesis REL_DEC : forall a b, rel a b \/ ~ rel a b.
Hypothesis REL_TOT : forall a b, ~ rel a b -> rel b a.
Hypothesis REL_EXT : forall a a' b b', (a == a')%Q -> (b == b')%Q -> rel a b -> rel a' b'.
Definition better (x y : num) : Prop := match x, y with Num a, Num b => rel a b | _, _ => True end.
Definition best_cmp (cmp : aff -> aff -> res set) : Prop :=
  forall f g b, ok_aff f -> ok_aff g -> cmp f g = Ok b -> ok_set b /\ forall P O, point P O -> (holds b P O <-> exists q1 q2, is_value f P O (Num q1) /\ is_value g P O (Num q2) /\ rel q1 q2).
Variable cmp : aff -> aff -> res set.
Hypothesis BEST : best_cmp cmp.
Lemma best_dec f g b P O : ok_aff f -> ok_aff g -> cmp f g = Ok b -> point P O -> holds b P O \/ ~ holds b P O.
Proof.
  intros F G E H. destruct (BEST f g b F G E) as (_ & Q). rewrite (Q P O H). clear Q. destruct (value_ex sp SET f P O F H) as ([|q1] & V1); [right; intros (a & _ & (W & _) & _); exact (nan_not_wf f W V1)|]. destruct (value_ex sp SET g P O G H) as ([|q2] & V2); [right; intros (_ & b' & _ & (W & _) & _); exact (nan_not_wf g W V2)|].
  destruct (REL_DEC q1 q2) as [R|R]; [left; exists q1, q2; auto|right]. intros (a & b' & A & B & R'). apply R. exact (REL_EXT _ _ _ _ (value_unique f P O _ _ A V1) (value_unique g P O _ _ B V2) R').
Qed.
Lemma best_val f g b P O q1 q2 : ok_aff f -> ok_aff g -> cmp f g = Ok b -> point P O -> is_value f P O (Num q1) -> is_value g P O (Num q2) -> (holds b P O <-> rel q1 q2).
Proof.
  intros F G E H V1 V2. destruct (BEST f g b F G E) as (_ & Q). rewrite (Q P O H). split; [intros (a & b' & A & B & R); exact (REL_EXT _ _ _ _ (value_unique f P O _ _ A V1) (value_unique g P O _ _ B V2) R)|intros R; exists q1, q2; auto].
Qed.
Lemma opt_split_ok c1 c2 s1 s2 b d1 d2 : ok_set c1 -> ok_set c2 -> ok_set s1 -> ok_set s2 -> ok_set b -> opt_split intersect subtract union c1 c2 s1 s2 b = Ok (d1, d2) ->
  ok_set d1 /\ ok_set d2 /\ forall P O, point P O -> (holds b P O \/ ~ holds b P O) -> (holds d1 P O <-> holds c1 P O /\ ~ (holds b P O /\ holds s2 P O)) /\ (holds d2 P O <-> holds c2 P O /\ (holds b P O \/ ~ holds s1 P O)).
Proof.
  intros C1 C2 S1 S2 B. unfold opt_split, worse_or_out, better_or_out.
  destruct (subtract c1 b) as [w| | |] eqn:E1; cbn [LocalModel.bind]; try discriminate. destruct (SUB _ _ _ C1 B E1) as (A1 & Q1).
  destruct (intersect c1 b) as [o| | |] eqn:E2; cbn [LocalModel.bind]; try discriminate. destruct (INT _ _ _ C1 B E2) as (A2 & Q2).
  destruct (subtract o s2) as [o'| | |] eqn:E3; cbn [LocalModel.bind]; try discriminate. destruct (SUB _ _ _ A2 S2 E3) as (A3 & Q3).
  destruct (union w o') as [u1| | |] eqn:E4; cbn [LocalModel.bind]; try discriminate. destruct (UNI _ _ _ A1 A3 E4) as (A4 & Q4).
  destruct (intersect c2 b) as [p| | |] eqn:E5; cbn [LocalModel.bind]; try discriminate. destruct (INT _ _ _ C2 B E5) as (A5 & Q5).
  destruct (subtract c2 b) as [r| | |] eqn:E6; cbn [LocalModel.bind]; try discriminate. destruct (SUB _ _ _ C2 B E6) as (A6 & Q6).
  destruct (subtract r s1) as [r'| | |] eqn:E7; cbn [LocalModel.bind]; try discriminate. destruct (SUB _ _ _ A6 S1 E7) as (A7 & Q7).
  destruct (union p r') as [u2| | |] eqn:E8; cbn [LocalModel.bind]; try discriminate. destruct (UNI _ _ _ A5 A7 E8) as (A8 & Q8).
  intros [= <- <-]. split; [exact A4|]. split; [exact A8|]. intros P O H D. rewrite (Q4 P O H), (Q3 P O H), (Q2 P O H), (Q1 P O H), (Q8 P O H), (Q7 P O H), (Q6 P O H), (Q5 P O H). clear -D. btauto'.
Qed.
(** one pair of pieces *)
Definition choice (f1 f2 : aff) (c1 c2 s1 s2 d1 d2 : set) : Prop :=
  forall P O, point P O -> exists B, (B \/ ~ B) /\ (holds d1 P O <-> holds c1 P O /\ ~ (B /\ holds s2 P O)) /\ (holds d2 P O <-> holds c2 P O /\ (B \/ ~ holds s1 P O)) /\
    forall q1 q2, is_value f1 P O (Num q1) -> is_value f2 P O (Num q2) -> (B -> rel q2 q1) /\ (~ B -> rel q1 q2).
Lemma opt_pair_ok c1 c2 s1 f1 s2 f2 d1 d2 : ok_set c1 -> ok_set c2 -> ok_set s1 -> ok_set s2 -> ok_aff f1 -> ok_aff f2 -> opt_pair intersect subtract union cmp c1 c2 (s1, f1) (s2, f2) = Ok (d1, d2) -> ok_set d1 /\ ok_set d2 /\ choice f1 f2 c1 c2 s1 s2 d1 d2.
Proof.
  intros C1 C2 S1 S2 F1 F2. unfold opt_pair. cbn [fst snd]. destruct (cmp f2 f1) as [b| | |] eqn:EB; cbn [LocalModel.bind]; try discriminate. destruct (BEST f2 f1 b F2 F1 EB) as (B & _). intros E. destruct (opt_split_ok _ _ _ _ _ _ _ C1 C2 S1 S2 B E) as (A1 & A2 & Q). split; [exact A1|]. split; [exact A2|]. intros P O H. pose proof (best_dec f2 f1 b P O F2 F1 EB H) as D. destruct (Q P O H D) as (Q1 & Q2). exists (holds b P O). split; [exact D|]. split; [exact Q1|]. split; [exact Q2|]. intros q1 q2 V1 V2. rewrite (best_val f2 f1 b P O q2 q1 F2 F1 EB H V2 V1). split; [auto|apply REL_TOT].
Qed.
Lemma opt_two_ok c1 c2 s1 f1 s2 f2 d1 d2 : ok_set c1 -> ok_set c2 -> ok_set s1 -> ok_set s2 -> ok_aff f1 -> ok_aff f2 -> opt_two intersect subtract union is_subset is_empty cmp c1 c2 (s1, f1) (s2, f2) = Ok (d1, d2) -> ok_set d1 /\ ok_set d2 /\ choice f1 f2 c1 c2 s1 s2 d1 d2.
Proof.
  intros C1 C2 S1 S2 F1 F2. unfold opt_two. cbn [fst snd]. destruct (is_subset s2 s1) as [sub| | |]; cbn [LocalModel.bind]; try discriminate. destruct (negb sub); [apply opt_pair_ok; assumption|]. destruct (cmp f1 f2) as [b| | |] eqn:EB; cbn [LocalModel.bind]; try discriminate. destruct (BEST f1 f2 b F1 F2 EB) as (B & _).
  assert (SW : (let! r := opt_split intersect subtract union c2 c1 s2 s1 b in Ok (snd r, fst r)) = Ok (d1, d2) -> ok_set d1 /\ ok_set d2 /\ choice f1 f2 c1 c2 s1 s2 d1 d2).
  { destruct (opt_split intersect subtract union c2 c1 s2 s1 b) as [(u, v)| | |] eqn:ES; cbn [LocalModel.bind fst snd]; try discriminate. intros [= <- <-]. destruct (opt_split_ok _ _ _ _ _ _ _ C2 C1 S2 S1 B ES) as (A1 & A2 & Q). split; [exact A2|]. split; [exact A1|]. intros P O H. pose proof (best_dec f1 f2 b P O F1 F2 EB H) as D. destruct (Q P O H D) as (Q1 & Q2). exists (~ holds b P O). rewrite Q1, Q2. split; [tauto|]. split; [tauto|]. split; [tauto|]. intros q1 q2 V1 V2. rewrite <- (best_val f1 f2 b P O q1 q2 F1 F2 EB H V1 V2). split; [intros N; apply REL_TOT; rewrite <- (best_val f1 f2 b P O q1 q2 F1 F2 EB H V1 V2); exact N|tauto]. }
  destruct (is_empty b); [exact SW|]. destruct (is_subset s1 b) as [[|]| | |]; cbn [LocalModel.bind]; try discriminate; [exact SW|apply opt_pair_ok; assumption].
Qed.

(** ** lists of cells *)
Definition cells (l : list cell) : pwaff := map (fun c => (fst c, snd (snd c))) l.
Definition origs (l : list cell) : pwaff := map snd l.
Definition ok_cells (l : list cell) : Prop := Forall (fun c : cell => ok_set (fst c) /\ ok_set (fst (snd c)) /\ ok_aff (snd (snd c)) /\ forall P O, point P O -> holds (fst c) P O -> holds (fst (snd c)) P O) l.
Lemma ok_cells_cons c s f t : ok_cells ((c, (s, f)) :: t) <-> (ok_set c /\ ok_set s /\ ok_aff f /\ forall P O, point P O -> holds c P O -> holds s P O) /\ ok_cells t.
Proof. unfold ok_cells. rewrite Forall_cons_iff. reflexivity. Qed.
Lemma cells_within l P O : ok_cells l -> point P O -> defined (cells l) P O -> defined (origs l) P O.
Proof.
  intros W H. induction l as [|(c, (s, f)) t IH]; [auto|]. apply ok_cells_cons in W. destruct W as ((_ & _ & _ & I) & W). cbn [cells origs map fst snd]. rewrite !defined_cons. intros [X|X]; [left; apply I; assumption|right; apply (IH W X)].
Qed.
Lemma ok_cells_pw l : ok_cells l -> ok_pw (cells l).
Proof. intros W. apply Forall_forall. intros p I. apply in_map_iff in I. destruct I as ((c, (s, f)) & <- & I). unfold ok_cells in W. rewrite Forall_forall in W. destruct (W _ I) as (A & _ & B & _). split; assumption. Qed.
Lemma takes_defined_iff l P O : ok_cells l -> point P O -> (defined (cells l) P O <-> exists x, takes (cells l) P O x).
Proof. intros W H. split; [apply (defined_takes sp SET); [apply ok_cells_pw; exact W|exact H]|intros (x & T); exact (takes_defined _ _ _ _ T)]. Qed.

Lemma opt_inner_ok s1 f1 : ok_set s1 -> ok_aff f1 -> forall l2 c1 d1 l2', ok_set c1 -> ok_cells l2 -> (forall P O, point P O -> holds c1 P O -> holds s1 P O) -> disj (origs l2) ->
  opt_inner intersect subtract union is_disjoint is_subset is_empty cmp c1 (s1, f1) l2 = Ok (d1, l2') ->
  ok_set d1 /\ ok_cells l2' /\ origs l2' = origs l2 /\ (disj (cells l2) -> disj (cells l2')) /\
  forall P O, point P O ->
    (holds d1 P O -> holds c1 P O) /\
    (forall x, takes (cells l2') P O x -> takes (cells l2) P O x) /\
    (~ holds s1 P O -> forall x, takes (cells l2) P O x -> takes (cells l2') P O x) /\
    (~ defined (origs l2) P O -> holds c1 P O -> holds d1 P O) /\
    ~ (holds d1 P O /\ defined (cells l2') P O) /\
    (forall x1 x2, holds c1 P O -> is_value f1 P O x1 -> takes (cells l2) P O x2 -> (holds d1 P O /\ better x1 x2) \/ (takes (cells l2') P O x2 /\ better x2 x1)).
Proof.
  intros S1 F1. induction l2 as [|(c2, (s2, f2)) t IH]; intros c1 d1 l2' C1 W I1 J; cbn [opt_inner].
  - intros [= <- <-]. split; [exact C1|]. split; [exact W|]. split; [reflexivity|]. split; [auto|]. intros P O H. split; [auto|]. split; [auto|]. split; [auto|]. split; [auto|]. split; [intros (_ & X); exact (defined_nil _ _ X)|]. intros x1 x2 _ _ T. destruct (takes_nil _ _ _ T).
  - apply ok_cells_cons in W. destruct W as ((C2 & S2 & F2 & I2) & W). cbn [origs map snd] in J. apply disj_cons in J. destruct J as (J & JH).
    destruct (is_disjoint (fst (s1, f1)) (fst (s2, f2))) as [dj| | |] eqn:ED; cbn [LocalModel.bind]; try discriminate. cbn [fst] in ED.
    destruct (if dj then Ok (c1, c2) else opt_two intersect subtract union is_subset is_empty cmp c1 c2 (s1, f1) (s2, f2)) as [(e1, e2)| | |] eqn:EP; cbn [LocalModel.bind fst snd]; try discriminate.
    assert (PR : ok_set e1 /\ ok_set e2 /\ forall P O, point P O -> exists B : Prop, (B \/ ~ B) /\ (holds e1 P O <-> holds c1 P O /\ ~ (B /\ holds s2 P O)) /\ (holds e2 P O <-> holds c2 P O /\ (B \/ ~ holds s1 P O)) /\ forall q1 q2, holds s1 P O -> holds s2 P O -> is_value f1 P O (Num q1) -> is_value f2 P O (Num q2) -> (B -> rel q2 q1) /\ (~ B -> rel q1 q2)).
    { destruct dj.
      - injection EP as <- <-. split; [exact C1|]. split; [exact C2|]. intros P O H. pose proof (DIS s1 s2 S1 S2 ED P O H) as N. exists False. split; [tauto|]. split; [tauto|]. split; [|intros q1 q2 X1 X2; tauto]. split; [|tauto]. intros X. split; [exact X|right; intros Y; apply N; split; [exact Y|apply (I2 P O H X)]].
      - destruct (opt_two_ok _ _ _ _ _ _ _ _ C1 C2 S1 S2 F1 F2 EP) as (A1 & A2 & Q). split; [exact A1|]. split; [exact A2|]. intros P O H. destruct (Q P O H) as (B & D & Q1 & Q2 & Q3). exists B. split; [exact D|]. split; [exact Q1|]. split; [exact Q2|]. intros q1 q2 _ _. apply Q3. }
    clear EP. destruct PR as (A1 & A2 & PR). destruct (opt_inner intersect subtract union is_disjoint is_subset is_empty cmp e1 (s1, f1) t) as [(g1, t')| | |] eqn:ET; cbn [LocalModel.bind fst snd]; try discriminate. intros [= <- <-].
    assert (IE : forall P O, point P O -> holds e1 P O -> holds s1 P O) by (intros P O H X; destruct (PR P O H) as (B & _ & Q1 & _); apply (I1 P O H); tauto).
    destruct (IH e1 g1 t' A1 W IE J ET) as (G & W' & OR & DJ & K). clear IH ET.
    split; [exact G|]. split; [apply ok_cells_cons; split; [|exact W']; split; [exact A2|]; split; [exact S2|]; split; [exact F2|]; intros P O H X; destruct (PR P O H) as (B & _ & _ & Q2 & _); apply (I2 P O H); tauto|]. split; [cbn [origs map snd] in *; f_equal; exact OR|]. split.
    { cbn [cells map fst snd]. rewrite !disj_cons. intros (D & DH). split; [apply DJ; exact D|]. intros P O H (X & Y). apply (DH P O H). destruct (PR P O H) as (B & _ & _ & Q2 & _). split; [tauto|]. fold (cells t). fold (cells t') in Y. apply (takes_defined_iff t' P O W' H) in Y. destruct Y as (x & Y). destruct (K P O H) as (_ & K2 & _). exact (takes_defined _ _ _ _ (K2 x Y)). }
    intros P O H. destruct (PR P O H) as (B & D & Q1 & Q2 & Q3). destruct (K P O H) as (K1 & K2 & K3 & K4 & K5 & K6). clear PR K. cbn [cells origs map fst snd]. fold (cells t) (cells t') (origs t). split; [tauto|]. split; [|split; [|split; [|split]]].
    + intros x. rewrite !takes_cons. intros [(X & V)|X]; [left; split; [tauto|exact V]|right; exact (K2 x X)].
    + intros N x. rewrite !takes_cons. intros [(X & V)|X]; [left; split; [tauto|exact V]|right; exact (K3 N x X)].
    + rewrite defined_cons. intros N X. apply K4; [intros Y; apply N; right; exact Y|]. apply Q1. split; [exact X|]. intros (_ & Y). apply N. left. exact Y.
    + rewrite defined_cons. intros (X & [Y|Y]); [|exact (K5 (conj X Y))]. apply K1, Q1 in X. destruct X as (X & N). apply Q2 in Y. destruct Y as (Y & [Z|Z]); [apply N; split; [exact Z|exact (I2 P O H Y)]|exact (Z (I1 P O H X))].
    + intros x1 x2 X V1 T. rewrite !takes_cons in *. destruct T as [(Y & V2)|T].
      * pose proof (I1 P O H X) as X1. pose proof (I2 P O H Y) as X2. assert (ND : ~ defined (origs t) P O) by (intros Z; exact (JH P O H (conj X2 Z))). destruct D as [D|D].
        -- right. split; [left; split; [apply Q2; auto|exact V2]|]. destruct x1 as [|q1], x2 as [|q2]; try exact I. exact (proj1 (Q3 q1 q2 X1 X2 V1 V2) D).
        -- left. split; [apply (K4 ND), Q1; split; [exact X|tauto]|]. destruct x1 as [|q1], x2 as [|q2]; try exact I. exact (proj2 (Q3 q1 q2 X1 X2 V1 V2) D).
      * assert (E1 : holds e1 P O). { apply Q1. split; [exact X|]. intros (_ & Z). apply (JH P O H). split; [exact Z|]. apply (cells_within t P O W H). exact (takes_defined _ _ _ _ T). }
        destruct (K6 x1 x2 E1 V1 T) as [Z|(Z & R)]; [left; exact Z|right; split; [right; exact Z|exact R]].
Qed.

Lemma opt_outer_ok : forall pw1 l2 r1 r2, ok_pw pw1 -> disj pw1 -> ok_cells l2 -> disj (origs l2) -> disj (cells l2) ->
  opt_outer intersect subtract union is_disjoint is_subset is_empty cmp (extract_cells pw1) l2 = Ok (r1, r2) ->
  ok_cells r1 /\ ok_cells r2 /\ disj (cells r1) /\ disj (cells r2) /\
  forall P O, point P O ->
    (forall x, takes (cells r1) P O x -> takes pw1 P O x) /\
    (forall x, takes (cells r2) P O x -> takes (cells l2) P O x) /\
    (~ defined pw1 P O -> forall x, takes (cells l2) P O x -> takes (cells r2) P O x) /\
    (~ defined (origs l2) P O -> forall x, takes pw1 P O x -> takes (cells r1) P O x) /\
    ~ (defined (cells r1) P O /\ defined (cells r2) P O) /\
    (forall x1 x2, takes pw1 P O x1 -> takes (cells l2) P O x2 -> (takes (cells r1) P O x1 /\ better x1 x2) \/ (takes (cells r2) P O x2 /\ better x2 x1)).
Proof.
  induction pw1 as [|(s1, f1) t IH]; intros l2 r1 r2 W1 J1 W2 J2 JC; cbn [extract_cells map opt_outer].
  - intros [= <- <-]. split; [constructor|]. split; [exact W2|]. split; [constructor|]. split; [exact JC|]. intros P O H. split; [auto|]. split; [auto|]. split; [auto|]. split; [auto|]. split; [intros (X & _); exact (defined_nil _ _ X)|]. intros x1 x2 T. destruct (takes_nil _ _ _ T).
  - apply ok_cons in W1. destruct W1 as ((S1 & F1) & W1). apply disj_cons in J1. destruct J1 as (J1 & JH). cbn [fst].
    destruct (opt_inner intersect subtract union is_disjoint is_subset is_empty cmp s1 (s1, f1) l2) as [(d1, l2')| | |] eqn:EI; cbn [LocalModel.bind fst snd]; try discriminate.
    destruct (opt_inner_ok s1 f1 S1 F1 l2 s1 d1 l2' S1 W2 (fun _ _ _ x => x) J2 EI) as (D1 & W2' & OR & DJ & K). specialize (DJ JC).
    change (map (fun p => (fst p, p)) t) with (extract_cells t). destruct (opt_outer intersect subtract union is_disjoint is_subset is_empty cmp (extract_cells t) l2') as [(r1', r2')| | |] eqn:EO; cbn [LocalModel.bind fst snd]; try discriminate. intros [= <- <-].
    destruct (IH l2' r1' r2' W1 J1 W2' ltac:(rewrite OR; exact J2) DJ EO) as (R1 & R2 & JR1 & JR2 & L). clear IH EO EI.
    split; [apply ok_cells_cons; split; [|exact R1]; split; [exact D1|]; split; [exact S1|]; split; [exact F1|]; intros P O H X; apply (K P O H); exact X|]. split; [exact R2|]. split; [|split; [exact JR2|]].
    { cbn [cells map fst snd]. apply disj_cons. split; [exact JR1|]. intros P O H (X & Y). fold (cells r1') in Y. apply (takes_defined_iff r1' P O R1 H) in Y. destruct Y as (x & Y). apply (JH P O H). split; [apply (K P O H); exact X|]. exact (takes_defined _ _ _ _ (proj1 (L P O H) x Y)). }
    intros P O H. destruct (K P O H) as (K1 & K2 & K3 & K4 & K5 & K6). destruct (L P O H) as (L1 & L2 & L3 & L4 & L5 & L6). clear K L. rewrite OR in L4. cbn [cells map fst snd]. fold (cells r1'). split; [|split; [|split; [|split; [|split]]]].
    + intros x. rewrite !takes_cons. intros [(X & V)|X]; [left; split; [apply K1; exact X|exact V]|right; exact (L1 x X)].
    + intros x X. exact (K2 x (L2 x X)).
    + rewrite defined_cons. intros N x X. apply L3; [tauto|]. apply K3; [tauto|exact X].
    + intros N x. rewrite !takes_cons. intros [(X & V)|X]; [left; split; [exact (K4 N X)|exact V]|right; exact (L4 N x X)].
    + rewrite defined_cons. intros ([X|X] & Y); [|exact (L5 (conj X Y))]. apply K5. split; [exact X|]. apply (takes_defined_iff r2' P O R2 H) in Y. destruct Y as (x & Y). exact (takes_defined _ _ _ _ (L2 x Y)).
    + intros x1 x2 T1 T2. rewrite !takes_cons in *. destruct T1 as [(X & V1)|T1].
      * assert (N : ~ defined t P O) by (intros Z; exact (JH P O H (conj X Z))). destruct (K6 x1 x2 X V1 T2) as [(Y & R)|(Y & R)]; [left; auto|right; split; [apply (L3 N); exact Y|exact R]].
      * assert (N : ~ holds s1 P O) by (intros Z; exact (JH P O H (conj Z (takes_defined _ _ _ _ T1)))). destruct (L6 x1 x2 T1 (K3 N x2 T2)) as [(Y & R)|Y]; [left; split; [right; exact Y|exact R]|right; exact Y].
Qed.

(** ** merging the cells *)
Lemma merge_ok : forall fuel l1 l2 acc r, ok_cells l1 -> ok_cells l2 -> disj (cells l1) -> disj (cells l2) -> (forall P O, point P O -> ~ (defined (cells l1) P O /\ defined (cells l2) P O)) ->
  merge_cells union acmp fuel l1 l2 acc = Ok r -> exists L, r = acc ++ L /\ wf_pw L /\ forall P O, point P O -> (defined L P O <-> defined (cells l1) P O \/ defined (cells l2) P O) /\ forall x, takes L P O x <-> takes (cells l1) P O x \/ takes (cells l2) P O x.
Proof.
  assert (NIL : forall P O x, takes [] P O x <-> False) by (intros P O x; split; [apply takes_nil|tauto]). assert (NILD : forall P O, defined [] P O <-> False) by (intros P O; split; [apply defined_nil|tauto]).
  assert (STEP : forall c f t l acc0 r0, ok_set c -> ok_aff f -> (forall P O, point P O -> ~ (holds c P O /\ (defined (cells t) P O \/ defined (cells l) P O))) -> (exists L, r0 = add_piece acc0 c f ++ L /\ wf_pw L /\ forall P O, point P O -> (defined L P O <-> defined (cells t) P O \/ defined (cells l) P O) /\ forall x, takes L P O x <-> takes (cells t) P O x \/ takes (cells l) P O x) ->
    exists L, r0 = acc0 ++ L /\ wf_pw L /\ forall P O, point P O -> (defined L P O <-> holds c P O \/ defined (cells t) P O \/ defined (cells l) P O) /\ forall x, takes L P O x <-> (holds c P O /\ is_value f P O x) \/ takes (cells t) P O x \/ takes (cells l) P O x).
  { intros c f t l acc0 r0 C F N (L & -> & (OL & JL) & Q). exists (single c f ++ L). rewrite add_piece_app, app_assoc. split; [reflexivity|]. split.
    - split; [apply ok_app; split; [apply ok_single; assumption|exact OL]|]. apply disj_app. split; [apply disj_single|]. split; [exact JL|]. intros P O H. rewrite defined_single. destruct (Q P O H) as (QD & _). rewrite QD. exact (N P O H).
    - intros P O H. destruct (Q P O H) as (QD & QT). rewrite defined_app, defined_single, QD. split; [reflexivity|]. intros x. rewrite takes_app, takes_single, QT. reflexivity. }
  induction fuel as [|fuel IH]; intros l1 l2 acc r W1 W2 J1 J2 N.
  - destruct l1, l2; cbn [merge_cells]; try discriminate. intros [= <-]. exists []. rewrite app_nil_r. split; [reflexivity|]. split; [split; constructor|]. intros P O _. cbn [cells map]. split; [split; [auto|intros [X|X]; exact X]|]. intros x. split; [auto|intros [X|X]; exact X].
  - destruct l1 as [|(c1, (s1, f1)) t1], l2 as [|(c2, (s2, f2)) t2]; cbn [merge_cells snd].
    + intros [= <-]. exists []. rewrite app_nil_r. split; [reflexivity|]. split; [split; constructor|]. intros P O _. cbn [cells map]. split; [split; [auto|intros [X|X]; exact X]|]. intros x. split; [auto|intros [X|X]; exact X].
    + apply ok_cells_cons in W2. destruct W2 as ((C2 & S2 & F2 & I2) & W2). cbn [cells map fst snd] in J2. apply disj_cons in J2. destruct J2 as (J2 & JH2). fold (cells t2) in *. intros E. apply IH in E; [|exact W1|exact W2|exact J1|exact J2|intros P O H (X & _); exact (defined_nil _ _ X)].
      destruct (STEP c2 f2 [] t2 acc r C2 F2) as (L & EL & WL & Q); [intros P O H (X & [Y|Y]); [exact (defined_nil _ _ Y)|exact (JH2 P O H (conj X Y))]|exact E|]. exists L. split; [exact EL|]. split; [exact WL|]. intros P O H. destruct (Q P O H) as (QD & QT). assert (ND : ~ defined (cells []) P O) by exact (defined_nil P O). assert (NX : forall x, ~ takes (cells []) P O x) by (intros x; exact (takes_nil P O x)). cbn [cells map fst snd] in *. fold (cells t2) in *. rewrite QD, defined_cons. split; [tauto|]. intros x. specialize (NX x). rewrite QT, takes_cons. tauto.
    + apply ok_cells_cons in W1. destruct W1 as ((C1 & S1 & F1 & I1) & W1). cbn [cells map fst snd] in J1. apply disj_cons in J1. destruct J1 as (J1 & JH1). fold (cells t1) in *. intros E. apply IH in E; [|exact W1|exact W2|exact J1|exact J2|intros P O H (_ & X); exact (defined_nil _ _ X)].
      destruct (STEP c1 f1 t1 [] acc r C1 F1) as (L & EL & WL & Q); [intros P O H (X & [Y|Y]); [exact (JH1 P O H (conj X Y))|exact (defined_nil _ _ Y)]|exact E|]. exists L. split; [exact EL|]. split; [exact WL|]. intros P O H. destruct (Q P O H) as (QD & QT). cbn [cells map fst snd] in *. fold (cells t1) in *. rewrite QD, defined_cons, NILD. split; [tauto|]. intros x. rewrite QT, takes_cons, NIL. tauto.
    + pose proof W1 as W1'. pose proof W2 as W2'. pose proof J1 as J1'. pose proof J2 as J2'. apply ok_cells_cons in W1. destruct W1 as ((C1 & S1 & F1 & I1) & W1). apply ok_cells_cons in W2. destruct W2 as ((C2 & S2 & F2 & I2) & W2). cbn [cells map fst snd] in J1, J2. apply disj_cons in J1. destruct J1 as (J1 & JH1). apply disj_cons in J2. destruct J2 as (J2 & JH2). fold (cells t1) in J1, JH1. fold (cells t2) in J2, JH2.
      assert (N' : forall P O, point P O -> ~ ((holds c1 P O \/ defined (cells t1) P O) /\ (holds c2 P O \/ defined (cells t2) P O))) by (intros P O H; specialize (N P O H); cbn [cells map fst snd] in N; rewrite !defined_cons in N; exact N).
      assert (NL : forall P O, point P O -> ~ (defined (cells t1) P O /\ defined (cells ((c2, (s2, f2)) :: t2)) P O)) by (intros P O H (X & Y); apply (N' P O H); cbn [cells map fst snd] in Y; rewrite defined_cons in Y; tauto).
      assert (NR : forall P O, point P O -> ~ (defined (cells ((c1, (s1, f1)) :: t1)) P O /\ defined (cells t2) P O)) by (intros P O H (X & Y); apply (N' P O H); cbn [cells map fst snd] in X; rewrite defined_cons in X; tauto).
      assert (NT : forall P O, point P O -> ~ (defined (cells t1) P O /\ defined (cells t2) P O)) by (intros P O H (X & Y); apply (N' P O H); tauto).
      destruct (acmp f1 f2 <? 0) eqn:L0; [|destruct (0 <? acmp f1 f2) eqn:G0].
      * intros E. apply IH in E; [|assumption..]. destruct (STEP c1 f1 t1 ((c2, (s2, f2)) :: t2) acc r C1 F1) as (L & EL & WL & Q); [|exact E|].
        { intros P O H (X & [Y|Y]); [exact (JH1 P O H (conj X Y))|]. apply (N' P O H). cbn [cells map fst snd] in Y. rewrite defined_cons in Y. tauto. }
        exists L. split; [exact EL|]. split; [exact WL|]. intros P O H. destruct (Q P O H) as (QD & QT). cbn [cells map fst snd] in *. fold (cells t1) (cells t2) in *. rewrite QD, !defined_cons. split; [tauto|]. intros x. rewrite QT, !takes_cons. tauto.
      * intros E. apply IH in E; [|assumption..]. destruct (STEP c2 f2 ((c1, (s1, f1)) :: t1) t2 acc r C2 F2) as (L & EL & WL & Q); [|exact E|].
        { intros P O H (X & [Y|Y]); [|exact (JH2 P O H (conj X Y))]. apply (N' P O H). cbn [cells map fst snd] in Y. rewrite defined_cons in Y. tauto. }
        exists L. split; [exact EL|]. split; [exact WL|]. intros P O H. destruct (Q P O H) as (QD & QT). cbn [cells map fst snd] in *. fold (cells t1) (cells t2) in *. rewrite QD, !defined_cons. split; [tauto|]. intros x. rewrite QT, !takes_cons. tauto.
      * assert (Z0 : acmp f1 f2 = 0) by (clear -L0 G0; lia). destruct (union c1 c2) as [u| | |] eqn:EU; cbn [LocalModel.bind]; try discriminate. destruct (UNI _ _ _ C1 C2 EU) as (U & QU). cbv beta in QU. intros E. apply IH in E; [|assumption..]. destruct (STEP u f1 t1 t2 acc r U F1) as (L & EL & WL & Q); [|exact E|].
        { intros P O H (X & Y). rewrite (QU P O H) in X. pose proof (JH1 P O H). pose proof (JH2 P O H). pose proof (N' P O H). tauto. }
        exists L. split; [exact EL|]. split; [exact WL|]. intros P O H. destruct (Q P O H) as (QD & QT). cbn [cells map fst snd] in *. fold (cells t1) (cells t2) in *. rewrite QD, !defined_cons, (QU P O H). split; [tauto|]. intros x. rewrite QT, !takes_cons, (QU P O H). pose proof (CMP f1 f2 F1 F2 Z0 P O x H). tauto.
Qed.

Variable sort : pwaff -> pwaff.
Hypothesis SORT : forall l, Permutation l (sort l).
Lemma extract_cells_ok pw : ok_pw pw -> ok_cells (extract_cells pw).
Proof. intros W. apply Forall_forall. intros c I. apply in_map_iff in I. destruct I as ((s, f) & <- & I). destruct (ok_in sp pw s f W I) as (A & B). split; [exact A|]. split; [exact A|]. split; [exact B|auto]. Qed.
Lemma extract_origs pw : origs (extract_cells pw) = pw.
Proof. unfold origs, extract_cells. rewrite map_map. cbn [snd]. apply map_id. Qed.
Lemma extract_cells_cells pw : cells (extract_cells pw) = pw.
Proof. unfold cells, extract_cells. rewrite map_map. cbn [fst snd]. transitivity (map (fun x => x) pw); [apply map_ext; intros (s, f); reflexivity|apply map_id]. Qed.
Lemma union_opt_ok pw1 pw2 r : wf_pw pw1 -> wf_pw pw2 -> union_opt intersect subtract union acmp sort is_disjoint is_subset is_empty cmp pw1 pw2 = Ok r ->
  wf_pw r /\ forall P O, point P O ->
    (forall x, takes r P O x -> takes pw1 P O x \/ takes pw2 P O x) /\
    (forall x, takes pw1 P O x -> ~ defined pw2 P O -> takes r P O x) /\
    (forall x, takes pw2 P O x -> ~ defined pw1 P O -> takes r P O x) /\
    (forall x1 x2, takes pw1 P O x1 -> takes pw2 P O x2 -> (takes r P O x1 /\ better x1 x2) \/ (takes r P O x2 /\ better x2 x1)).
Proof.
  intros W1 W2. unfold union_opt.
  assert (E1 : pw1 = [] -> Ok pw2 = Ok r -> wf_pw r /\ forall P O, point P O -> (forall x, takes r P O x -> takes pw1 P O x \/ takes pw2 P O x) /\ (forall x, takes pw1 P O x -> ~ defined pw2 P O -> takes r P O x) /\ (forall x, takes pw2 P O x -> ~ defined pw1 P O -> takes r P O x) /\ (forall x1 x2, takes pw1 P O x1 -> takes pw2 P O x2 -> (takes r P O x1 /\ better x1 x2) \/ (takes r P O x2 /\ better x2 x1))).
  { intros -> [= <-]. split; [exact W2|]. intros P O H. split; [auto|]. split; [intros x T; destruct (takes_nil _ _ _ T)|]. split; [auto|]. intros x1 x2 T; destruct (takes_nil _ _ _ T). }
  assert (E2 : pw2 = [] -> Ok pw1 = Ok r -> wf_pw r /\ forall P O, point P O -> (forall x, takes r P O x -> takes pw1 P O x \/ takes pw2 P O x) /\ (forall x, takes pw1 P O x -> ~ defined pw2 P O -> takes r P O x) /\ (forall x, takes pw2 P O x -> ~ defined pw1 P O -> takes r P O x) /\ (forall x1 x2, takes pw1 P O x1 -> takes pw2 P O x2 -> (takes r P O x1 /\ better x1 x2) \/ (takes r P O x2 /\ better x2 x1))).
  { intros -> [= <-]. split; [exact W1|]. intros P O H. split; [auto|]. split; [auto|]. split; [intros x T; destruct (takes_nil _ _ _ T)|]. intros x1 x2 _ T; destruct (takes_nil _ _ _ T). }
  assert (GEN : (let! p1 := sort_unique union sort pw1 in let! p2 := sort_unique union sort pw2 in let! q := opt_outer intersect subtract union is_disjoint is_subset is_empty cmp (extract_cells p1) (extract_cells p2) in opt_merge union acmp (fst q) (snd q)) = Ok r -> wf_pw r /\ forall P O, point P O -> (forall x, takes r P O x -> takes pw1 P O x \/ takes pw2 P O x) /\ (forall x, takes pw1 P O x -> ~ defined pw2 P O -> takes r P O x) /\ (forall x, takes pw2 P O x -> ~ defined pw1 P O -> takes r P O x) /\ (forall x1 x2, takes pw1 P O x1 -> takes pw2 P O x2 -> (takes r P O x1 /\ better x1 x2) \/ (takes r P O x2 /\ better x2 x1))).
  { destruct (sort_unique union sort pw1) as [p1| | |] eqn:S1; cbn [LocalModel.bind]; try discriminate. destruct (sort_unique_ok sp union sort UNI SORT pw1 p1 W1 S1) as ((O1 & J1) & F1).
    destruct (sort_unique union sort pw2) as [p2| | |] eqn:S2; cbn [LocalModel.bind]; try discriminate. destruct (sort_unique_ok sp union sort UNI SORT pw2 p2 W2 S2) as ((O2 & J2) & F2).
    destruct (opt_outer intersect subtract union is_disjoint is_subset is_empty cmp (extract_cells p1) (extract_cells p2)) as [(r1, r2)| | |] eqn:EO; cbn [LocalModel.bind fst snd]; try discriminate.
    destruct (opt_outer_ok p1 (extract_cells p2) r1 r2 O1 J1 (extract_cells_ok p2 O2) ltac:(rewrite extract_origs; exact J2) ltac:(rewrite extract_cells_cells; exact J2) EO) as (R1 & R2 & JR1 & JR2 & K). rewrite extract_origs, extract_cells_cells in K.
    unfold opt_merge. intros E. destruct (merge_ok _ r1 r2 [] r R1 R2 JR1 JR2 (fun P O H => proj1 (proj2 (proj2 (proj2 (proj2 (K P O H)))))) E) as (L & -> & WL & Q). cbn [app]. split; [exact WL|]. intros P O H. destruct (K P O H) as (K1 & K2 & K3 & K4 & K5 & K6). destruct (Q P O H) as (QD & QT). destruct (F1 P O H) as (D1 & T1). destruct (F2 P O H) as (D2 & T2). split; [|split; [|split]].
    - intros x X. apply QT in X. destruct X as [X|X]; [left; apply T1, K1; exact X|right; apply T2, K2; exact X].
    - intros x X N. apply QT. left. apply K4; [rewrite <- D2; exact N|apply T1; exact X].
    - intros x X N. apply QT. right. apply K3; [rewrite <- D1; exact N|apply T2; exact X].
    - intros x1 x2 X1 X2. destruct (K6 x1 x2 (proj1 (T1 x1) X1) (proj1 (T2 x2) X2)) as [(Y & R)|(Y & R)]; [left|right]; (split; [apply QT; auto|exact R]). }
  destruct pw1 as [|p1 t1]; [apply E1; reflexivity|]. destruct pw2 as [|p2 t2]; [apply E2; reflexivity|]. exact GEN.
Qed.
End Opt.

(** ** the comparisons that are used *)
Section Cmp.
Variable sp : space.
Hypothesis SET : is_set sp = true.
Variables (simplify : bmap -> res bmap) (junk : nat -> Z).
Hypothesis SIMP : keeps_basic simplify.
Lemma nan_set b : aff_nonneg simplify sp b = Ok [] \/ aff_is_nan b = false.
Proof. unfold aff_nonneg. destruct (aff_is_nan b); [left; reflexivity|right; reflexivity]. Qed.
Lemma ge_best : best_cmp sp (fun a b => (b <= a)%Q) (aff_ge_set simplify junk sp).
Proof.
  intros f g b F G. unfold aff_ge_set, aff_sub. intros E.
  destruct (neg_op1 sp g (aff_neg g) G eq_refl) as (NG & VN). destruct (aff_add junk f (aff_neg g)) as [h| | |] eqn:EH; cbn [LocalModel.bind] in E; try discriminate. destruct (add_op2 sp junk f (aff_neg g) h F NG EH) as (H & VH).
  destruct H as ([WH|N] & EQ).
  - destruct (nonneg_sign sp SET simplify SIMP h b WH EQ E) as (B & QB). split; [exact B|]. intros P O PT. destruct (value_ex sp SET f P O F PT) as (x1 & V1). destruct (value_ex sp SET g P O G PT) as (x2 & V2). pose proof (VN P O x2 _ PT V2 eq_refl) as V3. pose proof (VH P O _ _ PT V1 V3) as V. destruct x1 as [|q1]; [destruct (nan_not_wf h WH V)|]. destruct x2 as [|q2]; [destruct (nan_not_wf h WH V)|]. cbn [lift1 lift2] in V. rewrite (QB P O _ PT (proj2 V)). split; [intros R; exists q1, q2; split; [exact V1|]; split; [exact V2|]; lra|]. intros (a & c & A & C & R). pose proof (value_unique f P O _ _ A V1) as U1. pose proof (value_unique g P O _ _ C V2) as U2. cbn [num_eq] in U1, U2. lra.
  - unfold aff_nonneg in E. rewrite (nan_is_nan h N) in E. injection E as <-. split; [constructor|]. intros P O PT. split; [intros (c & [] & _)|]. intros (a & c & A & C & _). pose proof (VH P O _ _ PT A (VN P O _ _ PT C eq_refl)) as V. cbn [lift1 lift2] in V. destruct (nan_not_wf h (proj1 V) N).
Qed.
Lemma le_best : best_cmp sp (fun a b => (a <= b)%Q) (aff_le_set simplify junk sp).
Proof.
  intros f g b F G E. unfold aff_le_set in E. destruct (ge_best g f b G F E) as (B & Q). split; [exact B|]. intros P O H. rewrite (Q P O H). split; intros (a & c & X & Y & Z); exists c, a; auto.
Qed.
End Cmp.
