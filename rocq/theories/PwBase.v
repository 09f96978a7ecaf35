(** Sets, expressions and lists of pieces. *)
From Coq Require Import ZArith List Bool QArith Arith Lia Permutation.
From Verif Require Import SeqSpec SeqModel SeqProofs MatModel BMapModel BMapSpec BMapSem BMapGauss2 LocalModel LocalSpec LocalProofs SimpModel SetModel SpaceModel SpaceSpec SpaceOps SpaceOps4 QpSpec QpProofs ValModel ValSpec SetBase SetSpec SetLift SetOps SetMaps AffModel AffSpec AffProofs AffArith AffPull AffMore PwModel PwSpec.
Import ListNotations.
Open Scope Z_scope.

(** ** values *)
Lemma num_eq_refl x : num_eq x x.
Proof. destruct x; cbn; [exact I|apply Qeq_refl]. Qed.
Lemma num_eq_sym x y : num_eq x y -> num_eq y x.
Proof. destruct x, y; cbn; auto. apply Qeq_sym. Qed.
Lemma tuple_trans a : forall b c, SpaceSpec.same a b -> SpaceSpec.same b c -> SpaceSpec.same a c.
Proof.
  induction a as [i d|i d a1 a2 IH1 IH2] using tuple_ind'; intros b c H1 H2; apply same_eq in H1 as (A & B & C); apply same_eq in H2 as (A' & B' & C'); apply same_eq;
    destruct b as [i' d' [[b1 b2]|]], c as [i'' d'' [[c1 c2]|]]; cbn in *; try tauto; (split; [congruence|]; split; [congruence|]); auto. destruct C, C'. split; eauto.
Qed.
Lemma is_equal_trans s1 s2 s3 : is_equal s1 s2 = true -> is_equal s2 s3 = true -> is_equal s1 s3 = true.
Proof. rewrite !is_equal_ok. intros (A & B & C) (A' & B' & C'). split; [congruence|]. split; eapply tuple_trans; eauto. Qed.

Section Space.
Variable sp : space.
Hypothesis SET : is_set sp = true.
Notation point := (point sp).
Notation ok_set := (ok_set sp).
Notation ok_aff := (ok_aff sp).
Notation ok_pw := (ok_pw sp).
Notation disj := (disjoint_pieces sp).
Notation wf_pw := (wf_pw sp).

Lemma set_in : n_in sp = 0%nat.
Proof. unfold is_set in SET. destruct (Nat.eqb_spec (n_in sp) 0); [assumption|discriminate SET]. Qed.
Lemma set_dim : dim_all sp = (nparam sp + n_out sp)%nat.
Proof. unfold dim_all. rewrite set_in. lia. Qed.
Lemma point_int f P O : ok_aff f -> point P O -> int_point (a_d f) (1 :: P ++ O).
Proof. intros (_ & E) (LP & LO). apply is_equal_dim in E. unfold a_d. rewrite E, set_dim. split; [cbn [length]; rewrite app_length; lia|reflexivity]. Qed.
Lemma value_ex f P O : ok_aff f -> point P O -> exists x, is_value f P O x.
Proof. intros F H. pose proof (point_int f P O F H) as I. destruct F as ([W|N] & E); [|exists NaN; exact N]. destruct (avalue_total f _ W I) as (r & A). exists (Num r). split; assumption. Qed.
Lemma nan_not_wf f : wf_aff f -> nan_aff f -> False.
Proof. clear SET. intros (_ & W) (_ & N). rewrite (N 0%nat) in W. lia. Qed.
Lemma value_unique f P O x y : is_value f P O x -> is_value f P O y -> num_eq x y.
Proof. destruct x, y; cbn; auto; [intros N (W & _); exact (nan_not_wf f W N)|intros (W & _) N; exact (nan_not_wf f W N)|]. intros (W & A) (_ & B). exact (avalue_unique f _ _ _ W A B). Qed.
Lemma value_ext f P O x y : num_eq x y -> is_value f P O x -> is_value f P O y.
Proof. destruct x, y; cbn; auto; try tauto. intros E (W & A). split; [exact W|exact (avalue_ext f _ _ _ E A)]. Qed.
Definition zeros (n : nat) : list Z := repeat 0 n.
Lemma some_point : point (zeros (nparam sp)) (zeros (n_out sp)).
Proof. split; apply repeat_length. Qed.

(** ** lists of pieces *)
Lemma defined_nil P O : ~ defined [] P O.
Proof. intros (s & f & [] & _). Qed.
Lemma takes_nil P O x : ~ takes [] P O x.
Proof. intros (s & f & [] & _). Qed.
Lemma defined_app a b P O : defined (a ++ b) P O <-> defined a P O \/ defined b P O.
Proof. split; [intros (s & f & I & H); apply in_app_or in I; destruct I; [left|right]; exists s, f; auto|intros [(s & f & I & H)|(s & f & I & H)]; exists s, f; (split; [apply in_or_app; auto|exact H])]. Qed.
Lemma takes_app a b P O x : takes (a ++ b) P O x <-> takes a P O x \/ takes b P O x.
Proof. split; [intros (s & f & I & H); apply in_app_or in I; destruct I; [left|right]; exists s, f; auto|intros [(s & f & I & H)|(s & f & I & H)]; exists s, f; (split; [apply in_or_app; auto|exact H])]. Qed.
Lemma defined_cons s f t P O : defined ((s, f) :: t) P O <-> holds s P O \/ defined t P O.
Proof. split; [intros (s' & f' & [E|I] & H); [injection E as <- <-; left; exact H|right; exists s', f'; auto]|intros [H|(s' & f' & I & H)]; [exists s, f|exists s', f']; cbn; auto]. Qed.
Lemma takes_cons s f t P O x : takes ((s, f) :: t) P O x <-> (holds s P O /\ is_value f P O x) \/ takes t P O x.
Proof. split; [intros (s' & f' & [E|I] & H); [injection E as <- <-; left; exact H|right; exists s', f'; auto]|intros [H|(s' & f' & I & H)]; [exists s, f|exists s', f']; cbn; auto]. Qed.
Lemma takes_defined pw P O x : takes pw P O x -> defined pw P O.
Proof. intros (s & f & I & H & _). exists s, f. auto. Qed.
Lemma defined_takes pw P O : ok_pw pw -> point P O -> defined pw P O -> exists x, takes pw P O x.
Proof. intros W H (s & f & I & D). unfold PwSpec.ok_pw in W. rewrite Forall_forall in W. destruct (W _ I) as (_ & A). destruct (value_ex f P O A H) as (x & V). exists x, s, f. auto. Qed.
Lemma takes_ext pw P O x y : num_eq x y -> takes pw P O x -> takes pw P O y.
Proof. intros E (s & f & I & D & V). exists s, f. split; [exact I|]. split; [exact D|]. exact (value_ext _ _ _ _ _ E V). Qed.
Lemma disj_cons s f t : disj ((s, f) :: t) <-> disj t /\ forall P O, point P O -> ~ (holds s P O /\ defined t P O).
Proof.
  split.
  - intros D. inversion D as [|? ? F T]; subst. split; [exact T|]. intros P O H (A & (s' & f' & I & B)). rewrite Forall_forall in F. exact (F _ I P O H (conj A B)).
  - intros (T & C). constructor; [|exact T]. apply Forall_forall. intros (s', f') I P O H (A & B). apply (C P O H). split; [exact A|exists s', f'; auto].
Qed.
Lemma disj_app a b : disj (a ++ b) <-> disj a /\ disj b /\ forall P O, point P O -> ~ (defined a P O /\ defined b P O).
Proof.
  induction a as [|(s, f) a IH]; cbn [app].
  - split; [intros D; split; [constructor|]; split; [exact D|]; intros P O _ (A & _); exact (defined_nil _ _ A)|intros (_ & D & _); exact D].
  - rewrite !disj_cons, IH. split.
    + intros ((A & B & C) & D). split; [split; [exact A|]; intros P O H (X & Y); apply (D P O H); split; [exact X|apply defined_app; left; exact Y]|]. split; [exact B|]. intros P O H (X & Y). apply defined_cons in X. destruct X as [X|X]; [apply (D P O H); split; [exact X|apply defined_app; right; exact Y]|exact (C P O H (conj X Y))].
    + intros ((A & B) & C & D). split; [split; [exact A|]; split; [exact C|]; intros P O H (X & Y); apply (D P O H); split; [apply defined_cons; right; exact X|exact Y]|]. intros P O H (X & Y). apply defined_app in Y. destruct Y as [Y|Y]; [exact (B P O H (conj X Y))|apply (D P O H); split; [apply defined_cons; left; exact X|exact Y]].
Qed.
Lemma ok_app a b : ok_pw (a ++ b) <-> ok_pw a /\ ok_pw b.
Proof. apply Forall_app. Qed.
Lemma ok_cons s f t : ok_pw ((s, f) :: t) <-> (ok_set s /\ ok_aff f) /\ ok_pw t.
Proof. unfold PwSpec.ok_pw. rewrite Forall_cons_iff. reflexivity. Qed.
Lemma ok_in pw s f : ok_pw pw -> List.In (s, f) pw -> ok_set s /\ ok_aff f.
Proof. intros W I. unfold PwSpec.ok_pw in W. rewrite Forall_forall in W. exact (W _ I). Qed.
Lemma takes_unique pw P O x y : wf_pw pw -> point P O -> takes pw P O x -> takes pw P O y -> num_eq x y.
Proof.
  intros (_ & D) H. induction pw as [|(s, f) t IH]; [intros A; destruct (takes_nil _ _ _ A)|]. apply disj_cons in D. destruct D as (D & C). rewrite !takes_cons. intros [(A & V)|T] [(A' & V')|T'].
  - exact (value_unique _ _ _ _ _ V V').
  - destruct (C P O H). split; [exact A|exact (takes_defined _ _ _ _ T')].
  - destruct (C P O H). split; [exact A'|exact (takes_defined _ _ _ _ T)].
  - exact (IH D T T').
Qed.
(** permutations *)
Lemma defined_perm a b P O : Permutation a b -> defined a P O -> defined b P O.
Proof. intros E (s & f & I & H). exists s, f. split; [exact (Permutation_in _ E I)|exact H]. Qed.
Lemma takes_perm a b P O x : Permutation a b -> takes a P O x -> takes b P O x.
Proof. intros E (s & f & I & H). exists s, f. split; [exact (Permutation_in _ E I)|exact H]. Qed.
Lemma disj_perm a b : Permutation a b -> disj a -> disj b.
Proof.
  induction 1 as [|(s, f) a b E IH|(s, f) (s', f') a|a b c E1 IH1 E2 IH2]; auto.
  - rewrite !disj_cons. intros (A & B). split; [exact (IH A)|]. intros P O H (X & Y). apply (B P O H). split; [exact X|exact (defined_perm _ _ _ _ (Permutation_sym E) Y)].
  - rewrite !disj_cons. intros ((A & B) & C). split; [split; [exact A|]|]; intros P O H (X & Y); [apply (C P O H); split; [exact X|apply defined_cons; right; exact Y]|]. apply defined_cons in Y. destruct Y as [Y|Y]; [apply (C P O H); split; [exact Y|apply defined_cons; left; exact X]|exact (B P O H (conj X Y))].
Qed.
Lemma ok_perm a b : Permutation a b -> ok_pw a -> ok_pw b.
Proof. intros E W. unfold PwSpec.ok_pw in *. rewrite Forall_forall in *. intros p I. apply W, (Permutation_in _ (Permutation_sym E) I). Qed.
Lemma wf_perm a b : Permutation a b -> wf_pw a -> wf_pw b.
Proof. intros E (W & D). split; [exact (ok_perm _ _ E W)|exact (disj_perm _ _ E D)]. Qed.

(** at most one piece *)
Definition single (s : set) (f : aff) : pwaff := add_piece [] s f.
Lemma add_piece_app pw s f : add_piece pw s f = pw ++ single s f.
Proof. unfold single, add_piece. destruct (plain_empty s); [rewrite app_nil_r; reflexivity|reflexivity]. Qed.
Lemma plain_empty_ok s P O : plain_empty s = true -> ~ holds s P O.
Proof. unfold plain_empty. destruct s; [|discriminate]. intros _ (b & [] & _). Qed.
Lemma defined_single s f P O : defined (single s f) P O <-> holds s P O.
Proof. unfold single, add_piece. destruct (plain_empty s) eqn:E; cbn [app]; [split; intros H; [destruct (defined_nil _ _ H)|destruct (plain_empty_ok _ _ _ E H)]|]. rewrite defined_cons. split; [intros [A|A]; [exact A|destruct (defined_nil _ _ A)]|auto]. Qed.
Lemma takes_single s f P O x : takes (single s f) P O x <-> holds s P O /\ is_value f P O x.
Proof. unfold single, add_piece. destruct (plain_empty s) eqn:E; cbn [app]; [split; [intros H; destruct (takes_nil _ _ _ H)|intros (H & _); destruct (plain_empty_ok _ _ _ E H)]|]. rewrite takes_cons. split; [intros [A|A]; [exact A|destruct (takes_nil _ _ _ A)]|auto]. Qed.
Lemma ok_single s f : ok_set s -> ok_aff f -> ok_pw (single s f).
Proof. intros A B. unfold single, add_piece. destruct (plain_empty s); [constructor|]. constructor; [split; assumption|constructor]. Qed.
Lemma disj_single s f : disj (single s f).
Proof. unfold single, add_piece. destruct (plain_empty s); [constructor|]. repeat constructor. Qed.
Lemma wf_single s f : ok_set s -> ok_aff f -> wf_pw (single s f).
Proof. intros A B. split; [exact (ok_single s f A B)|apply disj_single]. Qed.

(** ** the set of points of a piecewise expression *)
Lemma union_disjoint_holds s1 s2 : ok_set s1 -> ok_set s2 -> ok_set (map_union_disjoint s1 s2) /\ forall P O, point P O -> (holds (map_union_disjoint s1 s2) P O <-> holds s1 P O \/ holds s2 P O).
Proof. intros A B. destruct (map_union_disjoint_ok (fun _ => 0%nat) (nparam sp) 0 (n_out sp) s1 s2 A B) as (F & Q). split; [exact F|]. intros P O (LP & LO). apply Q; [exact LP|reflexivity|exact LO]. Qed.
Lemma domain_fold pw : forall d, ok_pw pw -> ok_set d ->
  let r := fold_left (fun d p => map_union_disjoint d (fst p)) pw d in ok_set r /\ forall P O, point P O -> (holds r P O <-> holds d P O \/ defined pw P O).
Proof.
  induction pw as [|(s, f) t IH]; intros d W D; cbn zeta; cbn [fold_left].
  - split; [exact D|]. intros P O H. split; [auto|intros [A|A]; [exact A|destruct (defined_nil _ _ A)]].
  - apply ok_cons in W. destruct W as ((S & F) & W). destruct (union_disjoint_holds d s D S) as (U & Q). destruct (IH (map_union_disjoint d s) W U) as (R & QR). split; [exact R|]. intros P O H. rewrite (QR P O H), (Q P O H), defined_cons. tauto.
Qed.
Lemma domain_ok pw : ok_pw pw -> ok_set (pw_domain pw) /\ forall P O, point P O -> (holds (pw_domain pw) P O <-> defined pw P O).
Proof. intros W. destruct (domain_fold pw [] W (Forall_nil _)) as (R & Q). split; [exact R|]. intros P O H. rewrite (Q P O H). split; [intros [(b & [] & _)|A]; exact A|auto]. Qed.

(** ** operations on expressions *)
Definition op1 (fn : aff -> res aff) (rel : num -> num -> Prop) : Prop :=
  forall f g, ok_aff f -> fn f = Ok g -> ok_aff g /\ forall P O x y, point P O -> is_value f P O x -> rel x y -> is_value g P O y.
Definition op2 (fn : aff -> aff -> res aff) (op : num -> num -> num) : Prop :=
  forall f1 f2 g, ok_aff f1 -> ok_aff f2 -> fn f1 f2 = Ok g -> ok_aff g /\ forall P O x1 x2, point P O -> is_value f1 P O x1 -> is_value f2 P O x2 -> is_value g P O (op x1 x2).
Lemma neg_op1 : op1 (fun f => Ok (aff_neg f)) (fun x y => y = lift1 Qopp x).
Proof.
  intros f g (A & E) [= <-]. destruct A as [W|N].
  - destruct (neg_ok f W) as (W' & V). split; [split; [left; exact W'|rewrite neg_sp; exact E]|]. intros P O [|q] y H X ->; cbn in *; [destruct (nan_not_wf _ W X)|]. split; [exact W'|apply V, X].
  - destruct (nan_unary f N) as (N' & _). split; [split; [right; exact N'|rewrite neg_sp; exact E]|]. intros P O [|q] y H X ->; cbn in *; [exact N'|destruct (nan_not_wf _ (proj1 X) N)].
Qed.
Lemma scale_op1 k : op1 (fun f => Ok (aff_scale f k)) (fun x y => y = lift1 (fun q => q * inject_Z k)%Q x).
Proof.
  intros f g (A & E) [= <-]. destruct A as [W|N].
  - destruct (scale_ok f k W) as (W' & V). split; [split; [left; exact W'|rewrite scale_sp; exact E]|]. intros P O [|q] y H X ->; cbn in *; [destruct (nan_not_wf _ W X)|]. split; [exact W'|apply V, X].
  - destruct (nan_unary f N) as (_ & _ & _ & N' & _). rewrite N'. split; [split; [right; exact N|exact E]|]. intros P O [|q] y H X ->; cbn in *; [exact N|destruct (nan_not_wf _ (proj1 X) N)].
Qed.
Lemma scale_down_op1 k : 0 < k -> op1 (fun f => aff_scale_down f k) (fun x y => y = lift1 (fun q => q / inject_Z k)%Q x).
Proof.
  intros K f g (A & E) G. destruct A as [W|N].
  - destruct (scale_down_ok f k W K) as (g' & G' & S & W' & V). rewrite G' in G. injection G as <-. split; [split; [left; exact W'|rewrite S; exact E]|]. intros P O [|q] y H X ->; cbn in *; [destruct (nan_not_wf _ W X)|]. split; [exact W'|apply V, X].
  - destruct (nan_unary f N) as (_ & _ & _ & _ & N' & _). rewrite N' in G. injection G as <-. split; [split; [right; exact N|exact E]|]. intros P O [|q] y H X ->; cbn in *; [exact N|destruct (nan_not_wf _ (proj1 X) N)].
Qed.
Definition on_num (rel : Q -> Z -> Prop) (x y : num) : Prop := match x with NaN => y = NaN | Num q => exists n, rel q n /\ y = Num (inject_Z n) end.
Lemma floor_op1 : op1 aff_floor (on_num is_floor).
Proof.
  intros f g (A & E) G. destruct A as [W|N].
  - destruct (floor_ok f W) as (g' & G' & S & W' & V). rewrite G' in G. injection G as <-. split; [split; [left; exact W'|rewrite S; exact E]|]. intros P O [|q] y H X; cbn in *; [destruct (nan_not_wf _ W X)|]. intros (n & R & ->). split; [exact W'|exact (V _ _ _ (proj2 X) R)].
  - destruct (nan_unary f N) as (_ & N' & _). rewrite N' in G. injection G as <-. split; [split; [right; exact N|exact E]|]. intros P O [|q] y H X; cbn in *; [intros ->; exact N|destruct (nan_not_wf _ (proj1 X) N)].
Qed.
Lemma ceil_op1 : op1 aff_ceil (on_num is_ceil).
Proof.
  intros f g (A & E) G. destruct A as [W|N].
  - destruct (ceil_ok f W) as (g' & G' & S & W' & V). rewrite G' in G. injection G as <-. split; [split; [left; exact W'|rewrite S; exact E]|]. intros P O [|q] y H X; cbn in *; [destruct (nan_not_wf _ W X)|]. intros (n & R & ->). split; [exact W'|exact (V _ _ _ (proj2 X) R)].
  - destruct (nan_unary f N) as (_ & _ & N' & _). rewrite N' in G. injection G as <-. split; [split; [right; exact N|exact E]|]. intros P O [|q] y H X; cbn in *; [intros ->; exact N|destruct (nan_not_wf _ (proj1 X) N)].
Qed.
Lemma ok_equal f1 f2 : ok_aff f1 -> ok_aff f2 -> is_equal (a_sp f1) (a_sp f2) = true.
Proof. intros (_ & A) (_ & B). exact (is_equal_trans _ _ _ A (is_equal_sym _ _ B)). Qed.
Lemma nan_add_sp junk f1 f2 g : aff_is_nan f1 = true \/ aff_is_nan f2 = true -> aff_add junk f1 f2 = Ok g -> g = f1 \/ g = f2.
Proof. unfold aff_add. destruct (negb _); [discriminate|]. destruct (aff_is_nan f1); [intros _ [= <-]; auto|]. destruct (aff_is_nan f2); [intros _ [= <-]; auto|]. intros [H|H]; discriminate H. Qed.
Ltac nanop N1 N2 :=
  split; [assumption|]; intros P O [|q1] [|q2] H X1 X2; cbn in *; try assumption;
  solve [destruct (nan_not_wf _ (proj1 X1) N1)|destruct (nan_not_wf _ (proj1 X2) N2)|exfalso; destruct X1 as (X1 & _); destruct X2 as (X2 & _); eauto using nan_not_wf].
Lemma add_op2 junk : op2 (aff_add junk) (lift2 Qplus).
Proof.
  intros f1 f2 g A1 A2 G. pose proof (ok_equal f1 f2 A1 A2) as EQ. destruct (proj1 A1) as [W1|N1].
  - destruct (proj1 A2) as [W2|N2].
    + destruct (add_ok junk f1 f2 W1 W2 EQ) as (g' & G' & S & W & V). rewrite G' in G. injection G as <-. split; [split; [left; exact W|rewrite S; apply A1]|]. intros P O [|q1] [|q2] H X1 X2; cbn in *; try solve [destruct (nan_not_wf _ W1 X1)|destruct (nan_not_wf _ W2 X2)]. split; [exact W|exact (V _ _ _ (proj2 X1) (proj2 X2))].
    + destruct (nan_binary junk f1 f2 EQ (or_intror (conj W1 N2))) as (h & (E & NH) & _). rewrite E in G. injection G as ->. assert (g = f1 \/ g = f2) as S by (apply (nan_add_sp junk f1 f2 g); [right; exact (nan_is_nan f2 N2)|exact E]).
      split; [split; [right; exact NH|destruct S as [->| ->]; [apply A1|apply A2]]|]. intros P O [|q1] [|q2] H X1 X2; cbn in *; try exact NH. destruct (nan_not_wf _ (proj1 X2) N2).
  - destruct (nan_binary junk f1 f2 EQ (or_introl (conj N1 (proj1 A2)))) as (h & (E & NH) & _). rewrite E in G. injection G as ->. assert (g = f1 \/ g = f2) as S by (apply (nan_add_sp junk f1 f2 g); [left; exact (nan_is_nan f1 N1)|exact E]).
    split; [split; [right; exact NH|destruct S as [->| ->]; [apply A1|apply A2]]|]. intros P O [|q1] [|q2] H X1 X2; cbn in *; try exact NH. destruct (nan_not_wf _ (proj1 X1) N1).
Qed.
Lemma scale_down_sp f k g : aff_scale_down f k = Ok g -> a_sp g = a_sp f.
Proof. unfold aff_scale_down. destruct (aff_is_nan f); [intros [= <-]; reflexivity|]. destruct (k =? 1); [intros [= <-]; reflexivity|]. destruct (k =? 0); [discriminate|intros [= <-]; reflexivity]. Qed.
Lemma mul_sp f1 f2 g : aff_mul f1 f2 = Ok g -> a_sp g = a_sp f1 \/ a_sp g = a_sp f2.
Proof.
  unfold aff_mul, aff_mul_cst. destruct (aff_is_nan f1); [intros [= <-]; auto|]. destruct (aff_is_nan f2); [intros [= <-]; auto|]. destruct (negb _ && _); [intros H; apply scale_down_sp in H; rewrite scale_sp in H; auto|]. destruct (negb _); [discriminate|]. intros H; apply scale_down_sp in H; rewrite scale_sp in H; auto.
Qed.
Lemma div_sp f1 f2 g : aff_div false f1 f2 = Ok g -> a_sp g = a_sp f1 \/ a_sp g = a_sp f2.
Proof.
  unfold aff_div. destruct (aff_is_nan f1); [intros [= <-]; auto|]. destruct (aff_is_nan f2); [intros [= <-]; auto|]. destruct (negb _); [discriminate|]. destruct (aff_plain_is_zero f2); [intros [= <-]; auto|]. destruct (_ <? 0); intros H; apply scale_down_sp in H; rewrite scale_sp in H; auto.
Qed.
Lemma eq_dims f1 f2 : ok_aff f1 -> ok_aff f2 -> a_d f1 = a_d f2.
Proof. intros A B. exact (is_equal_dim _ _ (ok_equal f1 f2 A B)). Qed.
Lemma mul_op2 : op2 aff_mul (lift2 Qmult).
Proof.
  intros f1 f2 g A1 A2 G. pose proof (ok_equal f1 f2 A1 A2) as EQ. assert (SP : is_equal (a_sp g) sp = true) by (destruct (mul_sp f1 f2 g G) as [->| ->]; [apply A1|apply A2]). destruct (proj1 A1) as [W1|N1].
  - destruct (proj1 A2) as [W2|N2].
    + assert (C : aff_is_cst f1 = true \/ aff_is_cst f2 = true). { unfold aff_mul in G. rewrite !not_nan in G by assumption. destruct (aff_is_cst f2); [auto|]. destruct (aff_is_cst f1); [auto|discriminate G]. }
      destruct (mul_ok f1 f2 W1 W2 C (eq_dims f1 f2 A1 A2)) as (g' & G' & W & V). rewrite G' in G. injection G as <-. split; [split; [left; exact W|exact SP]|]. intros P O [|q1] [|q2] H X1 X2; cbn in *; try solve [destruct (nan_not_wf _ W1 X1)|destruct (nan_not_wf _ W2 X2)]. split; [exact W|exact (V _ _ _ (proj2 X1) (proj2 X2))].
    + destruct (nan_binary (fun _ => 0) f1 f2 EQ (or_intror (conj W1 N2))) as (h & _ & _ & (E & NH) & _). rewrite E in G. injection G as ->.
      split; [split; [right; exact NH|exact SP]|]. intros P O [|q1] [|q2] H X1 X2; cbn in *; try exact NH. destruct (nan_not_wf _ (proj1 X2) N2).
  - destruct (nan_binary (fun _ => 0) f1 f2 EQ (or_introl (conj N1 (proj1 A2)))) as (h & _ & _ & (E & NH) & _). rewrite E in G. injection G as ->.
    split; [split; [right; exact NH|exact SP]|]. intros P O [|q1] [|q2] H X1 X2; cbn in *; try exact NH. destruct (nan_not_wf _ (proj1 X1) N1).
Qed.
Lemma div_op2 : op2 (aff_div false) ndiv.
Proof.
  intros f1 f2 g A1 A2 G. pose proof (ok_equal f1 f2 A1 A2) as EQ. assert (SP : is_equal (a_sp g) sp = true) by (destruct (div_sp f1 f2 g G) as [->| ->]; [apply A1|apply A2]). destruct (proj1 A1) as [W1|N1].
  - destruct (proj1 A2) as [W2|N2].
    + assert (C : aff_is_cst f2 = true). { unfold aff_div in G. rewrite !not_nan in G by assumption. destruct (aff_is_cst f2); [auto|discriminate G]. }
      destruct (div_ok f1 f2 W1 W2 C (eq_dims f1 f2 A1 A2)) as (g' & G' & Z & V). rewrite G' in G. injection G as <-. split.
      * split; [|exact SP]. destruct (avalue_total f2 _ W2 (point_int f2 _ _ A2 some_point)) as (r & R). destruct (Qeq_dec r 0) as [E|E]; [right; apply Z; eexists; exact (avalue_ext f2 _ _ _ E R)|left; apply V; eauto].
      * intros P O [|q1] [|q2] H X1 X2; cbn in *; try solve [destruct (nan_not_wf _ W1 X1)|destruct (nan_not_wf _ W2 X2)]. destruct (Qeq_bool q2 0) eqn:E; cbn.
        -- apply Z. eexists. apply Qeq_bool_iff in E. exact (avalue_ext f2 _ _ _ E (proj2 X2)).
        -- destruct V as (W & V); [exists (1 :: P ++ O), q2; split; [apply X2|intros E'; apply Qeq_bool_iff in E'; congruence]|]. split; [exact W|exact (V _ _ _ (proj2 X1) (proj2 X2))].
    + destruct (nan_binary (fun _ => 0) f1 f2 EQ (or_intror (conj W1 N2))) as (h & _ & _ & _ & (E & NH)). rewrite E in G. injection G as ->.
      split; [split; [right; exact NH|exact SP]|]. intros P O [|q1] [|q2] H X1 X2; cbn in *; try exact NH. destruct (nan_not_wf _ (proj1 X2) N2).
  - destruct (nan_binary (fun _ => 0) f1 f2 EQ (or_introl (conj N1 (proj1 A2)))) as (h & _ & _ & _ & (E & NH)). rewrite E in G. injection G as ->.
    split; [split; [right; exact NH|exact SP]|]. intros P O [|q1] [|q2] H X1 X2; cbn in *; try exact NH. destruct (nan_not_wf _ (proj1 X1) N1).
Qed.
End Space.
