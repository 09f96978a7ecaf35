(** C37: piecewise quasi-affine expressions describe functions, and the
    operations on them compute what they promise, point by point. *)
From Coq Require Import ZArith List Bool QArith Qminmax Arith Lia Permutation Lqa.
From Coq Require ClassicalEpsilon.
From Verif Require Import SeqSpec MatModel BMapModel BMapSpec LocalModel LocalSpec BElimModel BElimSpec SimpModel SetModel SpaceModel SpaceSpec QpSpec QpProofs SetBase SetSpec SetLift SetOps SetMaps SubModel SubSpec SubLoop SubMaps ValModel ValSpec AffModel AffSpec AffProofs AffMore PwModel PwSpec PwBase PwOps PwSets PwOpt PwMore.
From Verif Require PropsSet PropsSub AffRefute.
From Verif Require Import PropsBElim.
Import ListNotations.
Open Scope Z_scope.

Section Pw.
Variable sp : space.
Variable simplify : bmap -> res bmap.
Variables (intersect subtract union : set -> set -> res set) (complement coalesce normalize : set -> res set) (plain_equal is_disjoint is_subset : set -> set -> res bool) (is_empty : set -> bool) (contains : set -> list Z -> res bool) (acmp : aff -> aff -> Z) (sort : pwaff -> pwaff).
Variables (gist subst_hull : aff -> set -> res aff) (junk : nat -> Z) (full : pwaff -> pwaff -> bool).
Hypothesis SET : is_set sp = true.
Hypothesis SIMP : keeps_basic simplify.
Hypothesis INT : exact_intersect sp intersect.
Hypothesis SUB : exact_subtract sp subtract.
Hypothesis UNI : exact_union sp union.
Hypothesis COMPL : exact_complement sp complement.
Hypothesis COAL : keeps_set sp coalesce.
Hypothesis NORM : keeps_set sp normalize.
Hypothesis EQUAL : sound_equal sp plain_equal.
Hypothesis DIS : sound_disjoint sp is_disjoint.
Hypothesis CONT : exact_contains sp contains.
Hypothesis CMP : sound_cmp sp acmp.
Hypothesis SORT : forall l : pwaff, Permutation l (sort l).
Hypothesis GIST : keeps_value sp gist.
Hypothesis SUBST : keeps_value sp subst_hull.
Notation point := (point sp).
Notation wf_pw := (wf_pw sp).

(** C37: a piecewise expression has at most one value in a point, and has one in each point of its domain *)
Theorem C37_function pw P O : wf_pw pw -> point P O -> (defined pw P O <-> exists x, takes pw P O x) /\ forall x y, takes pw P O x -> takes pw P O y -> num_eq x y.
Proof. intros W H. split; [split; [exact (defined_takes sp SET pw P O (proj1 W) H)|intros (x & T); exact (takes_defined _ _ _ _ T)]|]. intros x y. exact (takes_unique sp pw P O x y W H). Qed.
(** C37: evaluation; the value outside of the domain is NaN *)
Theorem C37_eval pw P O v : wf_pw pw -> point P O -> pw_eval contains pw (1 :: P ++ O) = Ok v ->
  (forall x, takes pw P O x -> means_num v x) /\ (~ defined pw P O -> means v ENan).
Proof. intros (W & D). exact (pw_eval_ok sp SET contains CONT pw P O v W D). Qed.
(** C37: the domain *)
Theorem C37_domain pw : wf_pw pw -> ok_set sp (pw_domain pw) /\ forall P O, point P O -> (holds (pw_domain pw) P O <-> defined pw P O).
Proof. intros (W & _). exact (domain_ok sp pw W). Qed.
(** C37: opposite, multiplication and division by a number, rounding *)
Theorem C37_neg pw r : wf_pw pw -> pw_neg pw = Ok r -> wf_pw r /\ (forall P O, defined r P O <-> defined pw P O) /\ forall P O x, point P O -> takes pw P O x -> takes r P O (lift1 Qopp x).
Proof. exact (neg_pw sp pw r). Qed.
Theorem C37_scale pw k r : wf_pw pw -> pw_scale pw k = Ok r -> wf_pw r /\ (forall P O, defined r P O <-> defined pw P O) /\ forall P O x, point P O -> takes pw P O x -> takes r P O (lift1 (fun q => q * inject_Z k)%Q x).
Proof. exact (scale_pw sp pw k r). Qed.
Theorem C37_scale_down pw k r : wf_pw pw -> pw_scale_down pw k = Ok r -> 0 < k /\ wf_pw r /\ (forall P O, defined r P O <-> defined pw P O) /\ forall P O x, point P O -> takes pw P O x -> takes r P O (lift1 (fun q => q / inject_Z k)%Q x).
Proof. exact (scale_down_pw sp pw k r). Qed.
Theorem C37_floor pw r : wf_pw pw -> pw_floor pw = Ok r -> wf_pw r /\ (forall P O, defined r P O <-> defined pw P O) /\
  forall P O x y, point P O -> takes pw P O x -> on_num is_floor x y -> takes r P O y.
Proof. exact (un_pw sp _ _ (floor_op1 sp) pw r). Qed.
Theorem C37_ceil pw r : wf_pw pw -> pw_ceil pw = Ok r -> wf_pw r /\ (forall P O, defined r P O <-> defined pw P O) /\
  forall P O x y, point P O -> takes pw P O x -> on_num is_ceil x y -> takes r P O y.
Proof. exact (un_pw sp _ _ (ceil_op1 sp) pw r). Qed.
Theorem C37_mod pw m r : wf_pw pw -> pw_mod intersect gist junk pw m = Ok r ->
  0 < m /\ wf_pw r /\ (forall P O, point P O -> (defined r P O <-> defined pw P O)) /\
  forall P O x, point P O -> takes pw P O x -> match x with NaN => takes r P O NaN | Num q => forall n, is_floor (q / inject_Z m) n -> takes r P O (Num (q - inject_Z n * inject_Z m)) end.
Proof. exact (mod_ok sp intersect gist junk full INT GIST pw m r). Qed.
(** C37: arithmetic on the intersection of the domains *)
Theorem C37_add pw1 pw2 r : wf_pw pw1 -> wf_pw pw2 -> pw_add intersect gist junk pw1 pw2 = Ok r ->
  wf_pw r /\ (forall P O, point P O -> (defined r P O <-> defined pw1 P O /\ defined pw2 P O)) /\ forall P O x1 x2, point P O -> takes pw1 P O x1 -> takes pw2 P O x2 -> takes r P O (lift2 Qplus x1 x2).
Proof. exact (add_pw sp intersect INT gist junk GIST pw1 pw2 r). Qed.
Theorem C37_sub pw1 pw2 r : wf_pw pw1 -> wf_pw pw2 -> pw_sub intersect gist junk pw1 pw2 = Ok r ->
  wf_pw r /\ (forall P O, point P O -> (defined r P O <-> defined pw1 P O /\ defined pw2 P O)) /\ forall P O x1 x2, point P O -> takes pw1 P O x1 -> takes pw2 P O x2 -> takes r P O (lift2 Qminus x1 x2).
Proof. exact (sub_pw sp intersect INT gist junk GIST pw1 pw2 r). Qed.
Theorem C37_mul pw1 pw2 r : wf_pw pw1 -> wf_pw pw2 -> pw_mul intersect gist pw1 pw2 = Ok r ->
  wf_pw r /\ (forall P O, point P O -> (defined r P O <-> defined pw1 P O /\ defined pw2 P O)) /\ forall P O x1 x2, point P O -> takes pw1 P O x1 -> takes pw2 P O x2 -> takes r P O (lift2 Qmult x1 x2).
Proof. exact (mul_pw sp intersect gist INT GIST pw1 pw2 r). Qed.
(** C37: ... the quotient by zero is NaN *)
Theorem C37_div pw1 pw2 r : wf_pw pw1 -> wf_pw pw2 -> pw_div intersect gist pw1 pw2 = Ok r ->
  wf_pw r /\ (forall P O, point P O -> (defined r P O <-> defined pw1 P O /\ defined pw2 P O)) /\ forall P O x1 x2, point P O -> takes pw1 P O x1 -> takes pw2 P O x2 -> takes r P O (ndiv x1 x2).
Proof. exact (div_pw sp SET intersect gist INT GIST pw1 pw2 r). Qed.
(** C37: the integer quotient and the remainder, rounded towards zero *)
Theorem C37_tdiv_q pw1 pw2 r : wf_pw pw1 -> wf_pw pw2 ->
  pw_tdiv_q simplify intersect subtract union gist subst_hull sort coalesce complement normalize plain_equal sp full pw1 pw2 = Ok r ->
  wf_pw r /\ (forall P O, point P O -> (defined r P O <-> defined pw1 P O /\ defined pw2 P O)) /\
  forall P O x1 x2 y, point P O -> takes pw1 P O x1 -> takes pw2 P O x2 -> on_num is_trunc (ndiv x1 x2) y -> takes r P O y.
Proof. exact (tdiv_q_ok sp SET simplify intersect subtract union complement coalesce normalize plain_equal sort gist subst_hull full SIMP INT SUB UNI COMPL COAL NORM EQUAL SORT GIST SUBST pw1 pw2 r). Qed.
Theorem C37_tdiv_r pw1 pw2 r : wf_pw pw1 -> wf_pw pw2 ->
  pw_tdiv_r simplify intersect subtract union gist subst_hull sort coalesce complement normalize plain_equal junk sp full pw1 pw2 = Ok r ->
  wf_pw r /\ (forall P O, point P O -> (defined r P O <-> defined pw1 P O /\ defined pw2 P O)) /\
  forall P O x1 x2 y, point P O -> takes pw1 P O x1 -> takes pw2 P O x2 -> on_num is_trunc (ndiv x1 x2) y -> takes r P O (lift2 Qminus x1 (lift2 Qmult x2 y)).
Proof. exact (tdiv_r_ok sp SET simplify intersect subtract union complement coalesce normalize plain_equal sort gist subst_hull junk full SIMP INT SUB UNI COMPL COAL NORM EQUAL SORT GIST SUBST pw1 pw2 r). Qed.
(** C37: the sum on the union of the domains *)
Theorem C37_union_add pw1 pw2 r : wf_pw pw1 -> wf_pw pw2 -> union_add intersect subtract gist junk pw1 pw2 = Ok r ->
  wf_pw r /\ (forall P O, point P O -> defined r P O -> defined pw1 P O \/ defined pw2 P O) /\
  (forall P O x1 x2, point P O -> takes pw1 P O x1 -> takes pw2 P O x2 -> takes r P O (lift2 Qplus x1 x2)) /\
  (forall P O x, point P O -> takes pw1 P O x -> ~ defined pw2 P O -> takes r P O x) /\
  (forall P O x, point P O -> takes pw2 P O x -> ~ defined pw1 P O -> takes r P O x).
Proof. exact (union_add_ok sp intersect subtract gist junk INT SUB GIST pw1 pw2 r). Qed.
(** C37: expressions with disjoint domains put together *)
Theorem C37_add_disjoint pw1 pw2 : wf_pw pw1 -> wf_pw pw2 -> (forall P O, point P O -> ~ (defined pw1 P O /\ defined pw2 P O)) ->
  wf_pw (add_disjoint full pw1 pw2) /\ forall P O, point P O -> (defined (add_disjoint full pw1 pw2) P O <-> defined pw1 P O \/ defined pw2 P O) /\ forall x, takes (add_disjoint full pw1 pw2) P O x <-> takes pw1 P O x \/ takes pw2 P O x.
Proof. exact (add_disjoint_ok sp full pw1 pw2). Qed.
(** C37: restrictions *)
Theorem C37_intersect_domain pw c r : wf_pw pw -> ok_set sp c -> intersect_domain intersect subst_hull pw c = Ok r ->
  wf_pw r /\ forall P O, point P O -> (defined r P O <-> defined pw P O /\ holds c P O) /\ forall x, takes pw P O x -> holds c P O -> takes r P O x.
Proof. exact (intersect_domain_ok sp SET intersect subst_hull pw c r INT SUBST). Qed.
Theorem C37_subtract_domain pw c r : wf_pw pw -> ok_set sp c -> subtract_domain subtract subst_hull pw c = Ok r ->
  wf_pw r /\ forall P O, point P O -> (defined r P O <-> defined pw P O /\ ~ holds c P O) /\ forall x, takes pw P O x -> ~ holds c P O -> takes r P O x.
Proof. exact (subtract_domain_ok sp SET subtract subst_hull pw c r SUB SUBST). Qed.
(** C37: changes of representation, and the test that uses them *)
Theorem C37_sort_unique pw r : wf_pw pw -> sort_unique union sort pw = Ok r -> wf_pw r /\ same_function sp pw r.
Proof. exact (sort_unique_ok sp union sort UNI SORT pw r). Qed.
Theorem C37_coalesce pw r : wf_pw pw -> pw_coalesce union sort coalesce pw = Ok r -> wf_pw r /\ same_function sp pw r.
Proof. exact (each_unique_ok sp union sort UNI SORT coalesce pw r COAL). Qed.
Theorem C37_normalize pw r : wf_pw pw -> pw_normalize union sort normalize pw = Ok r -> wf_pw r /\ same_function sp pw r.
Proof. exact (each_unique_ok sp union sort UNI SORT normalize pw r NORM). Qed.
Theorem C37_plain_is_equal pw1 pw2 : wf_pw pw1 -> wf_pw pw2 -> pw_plain_equal union sort normalize plain_equal pw1 pw2 = Ok true -> same_function sp pw1 pw2.
Proof. exact (pw_plain_equal_ok sp union sort UNI SORT normalize plain_equal pw1 pw2 NORM EQUAL). Qed.
(** C37: the greatest and the least value on the union of the domains *)
Theorem C37_union_max pw1 pw2 r : wf_pw pw1 -> wf_pw pw2 -> pw_union_max simplify intersect subtract union acmp sort is_disjoint is_subset is_empty junk sp pw1 pw2 = Ok r ->
  wf_pw r /\ forall P O, point P O ->
    (defined r P O -> defined pw1 P O \/ defined pw2 P O) /\
    (forall x, takes pw1 P O x -> ~ defined pw2 P O -> takes r P O x) /\
    (forall x, takes pw2 P O x -> ~ defined pw1 P O -> takes r P O x) /\
    (forall a b, takes pw1 P O (Num a) -> takes pw2 P O (Num b) -> takes r P O (Num (Qmax a b))).
Proof. exact (union_max_ok sp SET simplify intersect subtract union is_disjoint is_subset is_empty acmp sort junk SIMP INT SUB UNI DIS CMP SORT pw1 pw2 r). Qed.
Theorem C37_union_min pw1 pw2 r : wf_pw pw1 -> wf_pw pw2 -> pw_union_min simplify intersect subtract union acmp sort is_disjoint is_subset is_empty junk sp pw1 pw2 = Ok r ->
  wf_pw r /\ forall P O, point P O ->
    (defined r P O -> defined pw1 P O \/ defined pw2 P O) /\
    (forall x, takes pw1 P O x -> ~ defined pw2 P O -> takes r P O x) /\
    (forall x, takes pw2 P O x -> ~ defined pw1 P O -> takes r P O x) /\
    (forall a b, takes pw1 P O (Num a) -> takes pw2 P O (Num b) -> takes r P O (Num (Qmin a b))).
Proof. exact (union_min_ok sp SET simplify intersect subtract union is_disjoint is_subset is_empty acmp sort junk SIMP INT SUB UNI DIS CMP SORT pw1 pw2 r). Qed.
(** C37: the least and the greatest value on the intersection of the domains *)
Theorem C37_min pw1 pw2 r : wf_pw pw1 -> wf_pw pw2 -> no_nan pw1 -> no_nan pw2 -> pw_min simplify intersect subtract gist subst_hull junk sp full pw1 pw2 = Ok r ->
  wf_pw r /\ forall P O, point P O -> (defined r P O <-> defined pw1 P O /\ defined pw2 P O) /\ forall a b, takes pw1 P O (Num a) -> takes pw2 P O (Num b) -> takes r P O (Num (Qmin a b)).
Proof. exact (min_ok sp SET simplify intersect subtract gist subst_hull junk full SIMP INT SUB GIST SUBST pw1 pw2 r). Qed.
Theorem C37_max pw1 pw2 r : wf_pw pw1 -> wf_pw pw2 -> no_nan pw1 -> no_nan pw2 -> pw_max simplify intersect subtract gist subst_hull junk sp full pw1 pw2 = Ok r ->
  wf_pw r /\ forall P O, point P O -> (defined r P O <-> defined pw1 P O /\ defined pw2 P O) /\ forall a b, takes pw1 P O (Num a) -> takes pw2 P O (Num b) -> takes r P O (Num (Qmax a b)).
Proof. exact (max_ok sp SET simplify intersect subtract gist subst_hull junk full SIMP INT SUB GIST SUBST pw1 pw2 r). Qed.
(** C37: ... NaN everywhere if one of the pieces is NaN *)
Theorem C37_min_max_nan pw1 pw2 r : wf_pw pw1 -> wf_pw pw2 -> ~ no_nan pw1 \/ ~ no_nan pw2 ->
  pw_min simplify intersect subtract gist subst_hull junk sp full pw1 pw2 = Ok r \/ pw_max simplify intersect subtract gist subst_hull junk sp full pw1 pw2 = Ok r ->
  wf_pw r /\ forall P O, point P O -> (defined r P O <-> defined pw1 P O /\ defined pw2 P O) /\ (defined r P O -> takes r P O NaN).
Proof. intros W1 W2 N. exact (min_nan_ok sp SET simplify intersect subtract gist subst_hull junk full INT SUBST pw1 pw2 r W1 W2 (some_nan sp pw1 pw2 W1 W2 N)). Qed.
(** C37: the points where an expression is positive, non-negative, zero or not zero *)
Theorem C37_pos_set pw r : wf_pw pw -> pw_pos_set simplify intersect subtract sp pw = Ok r ->
  ok_set sp r /\ forall P O, point P O -> (holds r P O <-> exists q, takes pw P O (Num q) /\ (0 < q)%Q).
Proof. intros (W & _). exact (locus_nil sp SET intersect subtract INT SUB _ _ false pw r (pos_sign sp SET simplify SIMP) W). Qed.
Theorem C37_nonneg_set pw r : wf_pw pw -> pw_nonneg_set simplify intersect subtract sp pw = Ok r ->
  ok_set sp r /\ forall P O, point P O -> (holds r P O <-> exists q, takes pw P O (Num q) /\ (0 <= q)%Q).
Proof. intros (W & _). exact (locus_nil sp SET intersect subtract INT SUB _ _ false pw r (nonneg_sign sp SET simplify SIMP) W). Qed.
Theorem C37_zero_set pw r : wf_pw pw -> pw_zero_set simplify intersect subtract sp pw = Ok r ->
  ok_set sp r /\ forall P O, point P O -> (holds r P O <-> exists q, takes pw P O (Num q) /\ (q == 0)%Q).
Proof. intros (W & _). exact (locus_nil sp SET intersect subtract INT SUB _ _ false pw r (zero_sign sp SET simplify SIMP) W). Qed.
Theorem C37_non_zero_set pw r : wf_pw pw -> pw_non_zero_set simplify intersect subtract sp pw = Ok r ->
  ok_set sp r /\ forall P O, point P O -> (holds r P O <-> exists q, takes pw P O (Num q) /\ ~ (q == 0)%Q).
Proof. intros (W & _). exact (locus_nil sp SET intersect subtract INT SUB _ _ true pw r (zero_sign sp SET simplify SIMP) W). Qed.
(** C37: comparisons *)
Theorem C37_eq_set pw1 pw2 r : wf_pw pw1 -> wf_pw pw2 -> pw_eq_set simplify intersect subtract gist subst_hull junk sp pw1 pw2 = Ok r ->
  ok_set sp r /\ forall P O, point P O -> (holds r P O <-> exists a b, takes pw1 P O (Num a) /\ takes pw2 P O (Num b) /\ (a == b)%Q).
Proof. exact (eq_set_ok sp SET simplify intersect subtract gist subst_hull junk SIMP INT SUB GIST SUBST pw1 pw2 r). Qed.
Theorem C37_ge_set pw1 pw2 r : wf_pw pw1 -> wf_pw pw2 -> pw_ge_set simplify intersect subtract gist subst_hull junk sp pw1 pw2 = Ok r ->
  ok_set sp r /\ forall P O, point P O -> (holds r P O <-> exists a b, takes pw1 P O (Num a) /\ takes pw2 P O (Num b) /\ (b <= a)%Q).
Proof. exact (ge_set_ok sp SET simplify intersect subtract gist subst_hull junk SIMP INT SUB GIST SUBST pw1 pw2 r). Qed.
Theorem C37_le_set pw1 pw2 r : wf_pw pw1 -> wf_pw pw2 -> pw_le_set simplify intersect subtract gist subst_hull junk sp pw1 pw2 = Ok r ->
  ok_set sp r /\ forall P O, point P O -> (holds r P O <-> exists a b, takes pw1 P O (Num a) /\ takes pw2 P O (Num b) /\ (a <= b)%Q).
Proof. exact (le_set_ok sp SET simplify intersect subtract gist subst_hull junk SIMP INT SUB GIST SUBST pw1 pw2 r). Qed.
(** C37: the strict comparisons; full statement:
      ok_set sp r /\ forall P O, point P O -> (holds r P O <-> exists a b, takes pw1 P O (Num a) /\ takes pw2 P O (Num b) /\ (b < a)%Q).
    The reverse inclusion only holds where the difference is an integer, see
    C37_gt_set_refuted *)
Theorem C37_gt_set_partial pw1 pw2 r : wf_pw pw1 -> wf_pw pw2 -> pw_gt_set simplify intersect subtract gist subst_hull junk sp pw1 pw2 = Ok r ->
  ok_set sp r /\ forall P O, point P O ->
    (holds r P O -> exists a b, takes pw1 P O (Num a) /\ takes pw2 P O (Num b) /\ (b < a)%Q) /\
    forall a b, takes pw1 P O (Num a) -> takes pw2 P O (Num b) -> integral (a - b) -> (holds r P O <-> (b < a)%Q).
Proof. exact (gt_set_ok sp SET simplify intersect subtract gist subst_hull junk SIMP INT SUB GIST SUBST pw1 pw2 r). Qed.
Theorem C37_lt_set_partial pw1 pw2 r : wf_pw pw1 -> wf_pw pw2 -> pw_lt_set simplify intersect subtract gist subst_hull junk sp pw1 pw2 = Ok r ->
  ok_set sp r /\ forall P O, point P O ->
    (holds r P O -> exists b a, takes pw2 P O (Num b) /\ takes pw1 P O (Num a) /\ (a < b)%Q) /\
    forall b a, takes pw2 P O (Num b) -> takes pw1 P O (Num a) -> integral (b - a) -> (holds r P O <-> (a < b)%Q).
Proof. intros W1 W2. exact (gt_set_ok sp SET simplify intersect subtract gist subst_hull junk SIMP INT SUB GIST SUBST pw2 pw1 r W2 W1). Qed.
Theorem C37_ne_set_partial pw1 pw2 r : wf_pw pw1 -> wf_pw pw2 -> pw_ne_set simplify intersect subtract gist subst_hull junk sp pw1 pw2 = Ok r ->
  ok_set sp r /\ forall P O, point P O ->
    (holds r P O -> exists a b, takes pw1 P O (Num a) /\ takes pw2 P O (Num b) /\ ~ (a == b)%Q) /\
    forall a b, takes pw1 P O (Num a) -> takes pw2 P O (Num b) -> integral (a - b) -> (holds r P O <-> ~ (a == b)%Q).
Proof. exact (ne_set_ok sp SET simplify intersect subtract gist subst_hull junk SIMP INT SUB GIST SUBST pw1 pw2 r). Qed.
(** C37: choices *)
Theorem C37_select c1 pw1 c2 pw2 r : wf_pw pw1 -> wf_pw pw2 -> ok_set sp c1 -> ok_set sp c2 -> (forall P O, point P O -> ~ (holds c1 P O /\ holds c2 P O)) -> pw_select intersect subst_hull full c1 pw1 c2 pw2 = Ok r ->
  wf_pw r /\ forall P O, point P O -> (defined r P O <-> (defined pw1 P O /\ holds c1 P O) \/ (defined pw2 P O /\ holds c2 P O)) /\ (forall x, takes pw1 P O x -> holds c1 P O -> takes r P O x) /\ (forall x, takes pw2 P O x -> holds c2 P O -> takes r P O x).
Proof. exact (select_ok sp SET intersect subst_hull full INT SUBST c1 pw1 c2 pw2 r). Qed.
Theorem C37_cond_partial cond pwt pwf r : wf_pw cond -> no_nan cond -> wf_pw pwt -> wf_pw pwf -> pw_cond simplify intersect subtract union subst_hull sort coalesce normalize plain_equal sp full cond pwt pwf = Ok r ->
  wf_pw r /\ forall P O, point P O ->
    (defined r P O -> defined cond P O) /\
    forall q, takes cond P O (Num q) ->
      (~ (q == 0)%Q -> (defined r P O <-> defined pwt P O) /\ forall x, takes pwt P O x -> takes r P O x) /\
      ((q == 0)%Q -> (defined r P O <-> defined pwf P O) /\ forall x, takes pwf P O x -> takes r P O x).
Proof. exact (cond_ok sp SET simplify intersect subtract union coalesce normalize plain_equal sort subst_hull full SIMP INT SUB UNI COAL NORM EQUAL SORT SUBST cond pwt pwf r). Qed.
(** C37: the indicator function of a set *)
Theorem C37_indicator s r : ok_set sp s -> indicator complement sp full s = Ok r ->
  wf_pw r /\ no_nan r /\ forall P O, point P O -> (holds s P O -> takes r P O (Num 1)) /\ (~ holds s P O -> takes r P O (Num 0)).
Proof. exact (indicator_ok sp SET complement full COMPL s r). Qed.
End Pw.

(** C37: the operations of SetModel.v, SubModel.v and SimpModel.v are as expected above *)
Theorem C37_set_operations sp hash no_redundant tab fuel is_empty no_sample emp red kinds qsort explicit_divs marked_disjoint steps :
  sound_tab tab -> PropsSet.finds_empty is_empty -> PropsSet.permutes qsort -> sound_emptiness emp -> sound_redundancy red -> sound_kinds kinds -> sound_sample no_sample -> sound_explicit explicit_divs ->
  keeps_basic (simplify hash no_redundant tab fuel) /\
  exact_intersect sp (map_intersect hash no_redundant tab fuel is_empty qsort) /\
  exact_subtract sp (map_subtract hash no_redundant tab fuel no_sample emp red kinds qsort explicit_divs marked_disjoint steps) /\
  exact_union sp (map_union no_redundant tab qsort) /\
  exact_complement sp (map_complement hash no_redundant tab fuel no_sample emp red kinds qsort explicit_divs marked_disjoint steps (nparam sp) 0 (n_out sp)) /\
  sound_equal sp (map_plain_equal no_redundant tab qsort) /\
  sound_disjoint sp (map_is_disjoint hash no_redundant tab fuel no_sample qsort).
Proof.
  intros T FE QS E R K S X. split; [|split; [|split; [|split; [|split; [|split]]]]].
  - intros b b' P H. exact (simplify_same hash no_redundant tab fuel T b b' P H).
  - intros s1 s2 s A B H. destruct (PropsSet.C27_map_intersect hash no_redundant tab fuel is_empty qsort s1 s2 s _ _ _ T FE QS A B H) as (C & D). split; [exact C|]. intros P O (LP & LO). exact (D P [] O LP eq_refl LO).
  - intros s1 s2 s A B H. destruct (PropsSub.C28_subtract hash no_redundant tab fuel no_sample emp red kinds qsort explicit_divs marked_disjoint steps s1 s2 s _ _ _ T E R K S QS X A B H) as (C & D). split; [exact C|]. intros P O (LP & LO). exact (D P [] O LP eq_refl LO).
  - intros s1 s2 s A B H. destruct (PropsSet.C27_map_union no_redundant tab qsort s1 s2 s _ _ _ T QS A B H) as (C & D). split; [exact C|]. intros P O (LP & LO). exact (D P [] O LP eq_refl LO).
  - intros s s' A H. destruct (PropsSub.C28_complement hash no_redundant tab fuel no_sample emp red kinds qsort explicit_divs marked_disjoint steps s s' _ _ _ T E R K S QS X A H) as (C & D). split; [exact C|]. intros P O (LP & LO). exact (D P [] O LP eq_refl LO).
  - intros s1 s2 A B H P O (LP & LO). exact (PropsSet.C27_map_plain_equal no_redundant tab qsort s1 s2 _ _ _ T QS A B H P [] O LP eq_refl LO).
  - intros s1 s2 A B H P O (LP & LO). destruct (disjoint_ok hash no_redundant tab fuel no_sample T S _ _ _ qsort QS s1 s2 true A B H) as (D & _). pose proof (D eq_refl) as D'. rewrite (SubProofs.all_points (nparam sp) 0 (n_out sp) (fun x => ~ (any s1 x /\ any s2 x))) in D'. exact (D' P [] O LP eq_refl LO).
Qed.

(** ** examples: expressions on the integers *)
Definition xsp : space := AffRefute.ssp 1.
Definition xI := map_intersect PropsSet.id_hash PropsSet.no no_tab 20 PropsSet.no (fun l => l).
Definition xS := map_subtract PropsSet.id_hash PropsSet.no no_tab 20 PropsSet.no PropsSub.no_emp PropsSub.no_red PropsSub.no_kinds (fun l => l) PropsSub.no_explicit (fun _ => true) 40.
Definition xU := map_union PropsSet.no no_tab (fun l => l).
Definition xC := map_complement PropsSet.id_hash PropsSet.no no_tab 20 PropsSet.no PropsSub.no_emp PropsSub.no_red PropsSub.no_kinds (fun l => l) PropsSub.no_explicit (fun _ => true) 40 0 0 1.
Definition xN := simplify PropsSet.id_hash PropsSet.no no_tab 20.
Definition xE := map_plain_equal PropsSet.no no_tab (fun l => l).
Definition same_set (s : set) : res set := Ok s.
Definition same_aff (f : aff) (s : set) : res aff := Ok f.
Definition never (s1 s2 : set) : res bool := Ok false.
Definition id_sort (l : pwaff) : pwaff := l.
Definition xcmp (f g : aff) : Z := if aff_plain_is_equal f g then 0 else -1.
Definition room (a b : pwaff) : bool := true.
Example ex_contracts : is_set xsp = true /\ keeps_basic xN /\ exact_intersect xsp xI /\ exact_subtract xsp xS /\ exact_union xsp xU /\ exact_complement xsp xC /\ sound_equal xsp xE.
Proof.
  split; [reflexivity|]. destruct (C37_set_operations xsp PropsSet.id_hash PropsSet.no no_tab 20 PropsSet.no PropsSet.no PropsSub.no_emp PropsSub.no_red PropsSub.no_kinds (fun l => l) PropsSub.no_explicit (fun _ => true) 40 no_tab_sound) as (A & B & C & D & E & F & _);
    [intros b q _ X; discriminate X|intros l; reflexivity|exact PropsSub.no_emp_sound|exact PropsSub.no_red_sound|exact PropsSub.no_kinds_sound|exact PropsSub.no_sample_sound|exact PropsSub.no_explicit_sound|]. repeat (split; [assumption|]). assumption.
Qed.
Example ex_contracts2 : keeps_set xsp same_set /\ keeps_value xsp same_aff /\ sound_disjoint xsp never /\ sound_cmp xsp xcmp /\ forall l : pwaff, Permutation l (id_sort l).
Proof.
  split; [intros s s' W [= <-]; split; [exact W|reflexivity]|]. split; [intros f s g F _ [= <-]; split; [exact F|auto]|]. split; [intros s1 s2 _ _ E; discriminate E|]. split; [|intros l; reflexivity].
  intros f g F G E P O x _. unfold xcmp in E. destruct (aff_plain_is_equal f g) eqn:EQ; [|discriminate E]. exact (equal_values xsp f g P O x F G EQ).
Qed.
(** there is an exact test for membership *)
Example ex_contains : exists contains, exact_contains xsp contains.
Proof.
  exists (fun s v => Ok (if ClassicalEpsilon.excluded_middle_informative (holds s [] (tl v)) then true else false)). intros s P O c _ (LP & _) [= <-]. destruct P; [|discriminate LP]. cbn [app tl]. destruct (ClassicalEpsilon.excluded_middle_informative _) as [h|h]; [split; auto|split; intros X; [discriminate X|destruct (h X)]].
Qed.
Definition ge0 : set := [mkb 0 0 1 [] [[0; 1]] [] false false false].
Definition lt0 : set := [mkb 0 0 1 [] [[-1; -1]] [] false false false].
Definition to10 : set := [PropsSub.ex_a].
Definition fx : aff := mkaff xsp [] [1; 0; 1].
Definition fnx : aff := mkaff xsp [] [1; 0; -1].
Definition fhalf : aff := mkaff xsp [] [2; 0; 1].
Definition fk (k : Z) : aff := mkaff xsp [] [1; k; 0].
(** the absolute value *)
Definition pabs : pwaff := [(ge0, fx); (lt0, fnx)].
(** x/2 and 3 on the numbers from 0 to 10 *)
Definition phalf : pwaff := [(to10, fhalf)].
Definition pthree : pwaff := [(to10, fk 3)].
Example ex_wf_flat k c : ok_aff xsp (mkaff xsp [] [1; k; c]).
Proof. split; [left; apply AffRefute.wf_flat; [reflexivity|cbn; lia]|reflexivity]. Qed.
Example ex_half_ok : ok_aff xsp fhalf.
Proof. split; [left; apply AffRefute.wf_flat; [reflexivity|cbn; lia]|reflexivity]. Qed.
Example ex_ge0_ok : ok_set xsp ge0. Proof. constructor; [PropsSet.plain|constructor]. Qed.
Example ex_lt0_ok : ok_set xsp lt0. Proof. constructor; [PropsSet.plain|constructor]. Qed.
Example ex_to10_ok : ok_set xsp to10. Proof. constructor; [exact PropsSub.ex_a_ok|constructor]. Qed.
Lemma holds_flat EQ INEQ P O : holds [mkb 0 0 1 EQ INEQ [] false false false] P O <-> system EQ INEQ (1 :: P ++ O).
Proof.
  split.
  - intros (b & [<-|[]] & _ & e & L & H). destruct e; [|discriminate L]. rewrite app_nil_r in H. exact H.
  - intros H. eexists. split; [left; reflexivity|]. split; [reflexivity|]. exists []. split; [reflexivity|]. rewrite app_nil_r. exact H.
Qed.
Example ex_abs_wf : wf_pw xsp pabs.
Proof.
  split; [constructor; [split; [exact ex_ge0_ok|exact (ex_wf_flat 0 1)]|constructor; [split; [exact ex_lt0_ok|exact (ex_wf_flat 0 (-1))]|constructor]]|].
  constructor; [|constructor; constructor]. constructor; [|constructor]. intros P O _ (A & B). cbn [fst] in A, B. apply holds_flat in A. apply holds_flat in B. destruct A as (_ & A). destruct B as (_ & B). inversion A as [|? ? A1 _]; subst. inversion B as [|? ? B1 _]; subst. unfold nonneg_on in A1, B1. cbn [dot] in A1, B1. destruct (P ++ O); cbn [dot] in *; lia.
Qed.
Example ex_half_wf : wf_pw xsp phalf.
Proof. exact (wf_single xsp to10 fhalf ex_to10_ok ex_half_ok). Qed.
Example ex_three_wf : wf_pw xsp pthree.
Proof. exact (wf_single xsp to10 (fk 3) ex_to10_ok (ex_wf_flat 3 0)). Qed.
Example ex_no_nan : no_nan pabs /\ no_nan phalf /\ no_nan pthree.
Proof. split; [|split]; unfold no_nan, pabs, phalf, pthree; repeat (apply Forall_cons; [apply AffRefute.wf_flat; [reflexivity|cbn; lia]|]); apply Forall_nil. Qed.
(** reading off a value: the membership test for sets without integer divisions *)
Definition mem (s : set) (v : list Z) : res bool := Ok (existsb (fun b => forallb (fun r => dot r v =? 0) (b_eq b) && forallb (fun r => 0 <=? dot r v) (b_ineq b)) s).
Definition at_x (r : res pwaff) (x : Z) : option (Z * Z) := match (let! p := r in pw_eval mem p [1; x]) with Ok v => Some (vn v, vd v) | _ => None end.
Definition in_x (r : res set) (x : Z) : option bool := match (let! s := r in mem s [1; x]) with Ok b => Some b | _ => None end.
Definition n3 : aff -> set -> res aff := same_aff.
Definition xadd := pw_add xI same_aff AffRefute.no_junk.
Example ex_arith : at_x (Ok pabs) (-4) = Some (4, 1) /\ at_x (pw_neg pabs) 4 = Some (-4, 1) /\ at_x (pw_scale pabs 3) (-4) = Some (12, 1) /\ at_x (pw_scale_down pabs 3) (-4) = Some (4, 3) /\
  at_x (xadd pabs phalf) 4 = Some (6, 1) /\ at_x (xadd pabs phalf) (-4) = Some (0, 0) /\ at_x (pw_sub xI same_aff AffRefute.no_junk pabs phalf) 5 = Some (5, 2) /\ at_x (pw_mul xI same_aff pabs pthree) 5 = Some (15, 1) /\ at_x (pw_div xI same_aff phalf pthree) 5 = Some (5, 6).
Proof. vm_compute. repeat split. Qed.
Definition xtq := pw_tdiv_q xN xI xS xU same_aff same_aff id_sort same_set xC same_set xE xsp room.
Definition xtr := pw_tdiv_r xN xI xS xU same_aff same_aff id_sort same_set xC same_set xE AffRefute.no_junk xsp room.
Example ex_units : (exists r, pw_floor phalf = Ok r) /\ (exists r, pw_ceil phalf = Ok r) /\ (exists r, pw_mod xI same_aff AffRefute.no_junk pabs 3 = Ok r) /\ (exists r, xtq pabs pthree = Ok r) /\ (exists r, xtr pabs pthree = Ok r).
Proof. repeat split; eexists; vm_compute; reflexivity. Qed.
Definition xua := union_add xI xS same_aff AffRefute.no_junk.
Example ex_union_add : at_x (xua phalf pabs) (-3) = Some (3, 1) /\ at_x (xua phalf pabs) 4 = Some (6, 1) /\ at_x (xua phalf pabs) 11 = Some (11, 1).
Proof. vm_compute. repeat split. Qed.
Definition xmax := pw_union_max xN xI xS xU xcmp id_sort never never (fun _ => false) AffRefute.no_junk xsp.
Definition xmin := pw_union_min xN xI xS xU xcmp id_sort never never (fun _ => false) AffRefute.no_junk xsp.
Example ex_union_opt : at_x (xmax pabs pthree) (-1) = Some (1, 1) /\ at_x (xmax pabs pthree) 1 = Some (3, 1) /\ at_x (xmax pabs pthree) 7 = Some (7, 1) /\ at_x (xmin pabs pthree) 1 = Some (1, 1) /\ at_x (xmin pabs pthree) 7 = Some (3, 1) /\ at_x (xmin pabs pthree) 17 = Some (17, 1).
Proof. vm_compute. repeat split. Qed.
Definition xmn := pw_min xN xI xS same_aff same_aff AffRefute.no_junk xsp room.
Definition xmx := pw_max xN xI xS same_aff same_aff AffRefute.no_junk xsp room.
Definition fnan : aff := mkaff xsp [] [0; 0; 0].
Example ex_min_max : at_x (xmn pabs pthree) 1 = Some (1, 1) /\ at_x (xmn pabs pthree) 7 = Some (3, 1) /\ at_x (xmx pabs pthree) 7 = Some (7, 1) /\ at_x (xmx pabs pthree) (-1) = Some (0, 0) /\ at_x (xmx pabs [(to10, fnan)]) 7 = Some (0, 0).
Proof. vm_compute. repeat split. Qed.
Example ex_restrict : at_x (intersect_domain xI same_aff pabs to10) 4 = Some (4, 1) /\ at_x (intersect_domain xI same_aff pabs to10) (-4) = Some (0, 0) /\ at_x (subtract_domain xS same_aff pabs to10) 14 = Some (14, 1) /\ at_x (subtract_domain xS same_aff pabs to10) 4 = Some (0, 0) /\ at_x (Ok (add_disjoint room phalf [(lt0, fk 1)])) (-4) = Some (1, 1).
Proof. vm_compute. repeat split. Qed.
Example ex_unique : sort_unique xU id_sort [(ge0, fx); (lt0, fx)] = Ok [(ge0 ++ lt0, fx)] /\ pw_coalesce xU id_sort same_set [(ge0, fx); (lt0, fx)] = Ok [(ge0 ++ lt0, fx)] /\ pw_normalize xU id_sort same_set pabs = Ok pabs /\ pw_plain_equal xU id_sort same_set xE pabs pabs = Ok true.
Proof. vm_compute. repeat split. Qed.
Definition xgt := pw_gt_set xN xI xS same_aff same_aff AffRefute.no_junk xsp.
Example ex_sets : in_x (pw_pos_set xN xI xS xsp phalf) 0 = Some false /\ in_x (pw_pos_set xN xI xS xsp phalf) 1 = Some true /\ in_x (pw_nonneg_set xN xI xS xsp phalf) 0 = Some true /\ in_x (pw_zero_set xN xI xS xsp pabs) 0 = Some true /\ in_x (pw_non_zero_set xN xI xS xsp pabs) 2 = Some true /\
  in_x (pw_eq_set xN xI xS same_aff same_aff AffRefute.no_junk xsp pabs pthree) 3 = Some true /\ in_x (pw_ge_set xN xI xS same_aff same_aff AffRefute.no_junk xsp pabs pthree) 2 = Some false /\ in_x (pw_le_set xN xI xS same_aff same_aff AffRefute.no_junk xsp pabs pthree) 2 = Some true /\
  in_x (xgt pabs pthree) 4 = Some true /\ in_x (pw_lt_set xN xI xS same_aff same_aff AffRefute.no_junk xsp pabs pthree) 4 = Some false /\ in_x (pw_ne_set xN xI xS same_aff same_aff AffRefute.no_junk xsp pabs pthree) 4 = Some true.
Proof. vm_compute. repeat split. Qed.
Definition xcond := pw_cond xN xI xS xU same_aff id_sort same_set same_set xE xsp room.
Example ex_cond : at_x (xcond pabs phalf pthree) 4 = Some (2, 1) /\ at_x (xcond pabs phalf pthree) 0 = Some (3, 1) /\ at_x (xcond pabs phalf pthree) (-1) = Some (0, 0) /\ at_x (indicator xC xsp room to10) 4 = Some (1, 1) /\ at_x (indicator xC xsp room to10) 14 = Some (0, 1) /\ at_x (pw_select xI same_aff room ge0 pthree lt0 pabs) (-4) = Some (4, 1).
Proof. vm_compute. repeat split. Qed.

(** C37: isl_pw_aff_gt_set does not find all points: x/2 > 0 for x = 1 *)
Theorem C37_gt_set_refuted : exists pw1 pw2 r P O a b, wf_pw xsp pw1 /\ wf_pw xsp pw2 /\ pw_gt_set xN xI xS same_aff same_aff AffRefute.no_junk xsp pw1 pw2 = Ok r /\ point xsp P O /\
  takes pw1 P O (Num a) /\ takes pw2 P O (Num b) /\ (b < a)%Q /\ ~ holds r P O.
Proof.
  exists phalf, [(to10, fk 0)]. eexists. exists [], [1], (1 # 2)%Q, 0%Q. split; [exact ex_half_wf|]. split; [exact (wf_single xsp to10 (fk 0) ex_to10_ok (ex_wf_flat 0 0))|]. split; [vm_compute; reflexivity|]. split; [split; reflexivity|].
  assert (H : holds to10 [] [1]) by (apply holds_flat; split; [constructor|repeat constructor; unfold nonneg_on; cbn; lia]).
  split; [exists to10, fhalf; split; [left; reflexivity|]; split; [exact H|]; split; [apply AffRefute.wf_flat; [reflexivity|cbn; lia]|]; exists [1; 1]; split; [split; [reflexivity|]; split; [reflexivity|intros i HI; cbn in HI; lia]|]; split; [reflexivity|vm_compute; reflexivity]|].
  split; [exists to10, (fk 0); split; [left; reflexivity|]; split; [exact H|]; split; [apply AffRefute.wf_flat; [reflexivity|cbn; lia]|]; exists [1; 1]; split; [split; [reflexivity|]; split; [reflexivity|intros i HI; cbn in HI; lia]|]; split; [reflexivity|vm_compute; reflexivity]|]. split; [reflexivity|].
  intros X. assert (N : in_x (xgt phalf [(to10, fk 0)]) 1 = Some false) by (vm_compute; reflexivity). destruct X as (b & [<-|[]] & _ & e & L & _ & X). destruct e; [|discriminate L]. cbn [app] in X. rewrite Forall_forall in X. clear N. specialize (X [-2; 1]). unfold nonneg_on in X. cbn [dot b_ineq] in X. assert (0 <= -1) by (apply X; vm_compute; auto). lia.
Qed.
(** C37: isl_pw_aff_cond gives NaN outside of the domain of the condition *)
Theorem C37_cond_refuted : exists cond pwt pwf r P O, wf_pw xsp cond /\ wf_pw xsp pwt /\ wf_pw xsp pwf /\ pw_cond xN xI xS xU same_aff id_sort same_set same_set xE xsp room cond pwt pwf = Ok r /\ point xsp P O /\
  ~ defined cond P O /\ ~ defined pwt P O /\ ~ defined pwf P O /\ defined r P O.
Proof.
  assert (NN : ok_aff xsp fnan) by (split; [right; exact (AffRefute.nan_flat 1)|reflexivity]).
  assert (U : ~ holds to10 [] [20]). { intros X. apply holds_flat in X. destruct X as (_ & X). inversion X as [|? ? _ X1]; subst. inversion X1 as [|? ? X2 _]; subst. unfold nonneg_on in X2. cbn in X2. lia. }
  assert (D : forall f, ~ defined [(to10, f)] [] [20]) by (intros f (s & g & [I|[]] & X); injection I as <- <-; exact (U X)).
  exists [(to10, fnan)], phalf, pthree. eexists. exists [], [20]. split; [exact (wf_single xsp to10 fnan ex_to10_ok NN)|]. split; [exact ex_half_wf|]. split; [exact ex_three_wf|]. split; [vm_compute; reflexivity|]. split; [split; reflexivity|]. split; [apply D|]. split; [apply D|]. split; [apply D|]. destruct (pw_nan_ok xsp eq_refl (pw_from_aff xsp fnan) ltac:(vm_compute; reflexivity)) as (_ & Q). apply (Q [] [20]). split; reflexivity.
Qed.

Print Assumptions C37_function.
Print Assumptions C37_eval.
Print Assumptions C37_domain.
Print Assumptions C37_neg.
Print Assumptions C37_scale.
Print Assumptions C37_scale_down.
Print Assumptions C37_floor.
Print Assumptions C37_ceil.
Print Assumptions C37_mod.
Print Assumptions C37_add.
Print Assumptions C37_sub.
Print Assumptions C37_mul.
Print Assumptions C37_div.
Print Assumptions C37_tdiv_q.
Print Assumptions C37_tdiv_r.
Print Assumptions C37_union_add.
Print Assumptions C37_add_disjoint.
Print Assumptions C37_intersect_domain.
Print Assumptions C37_subtract_domain.
Print Assumptions C37_sort_unique.
Print Assumptions C37_coalesce.
Print Assumptions C37_normalize.
Print Assumptions C37_plain_is_equal.
Print Assumptions C37_union_max.
Print Assumptions C37_union_min.
Print Assumptions C37_min.
Print Assumptions C37_max.
Print Assumptions C37_min_max_nan.
Print Assumptions C37_pos_set.
Print Assumptions C37_nonneg_set.
Print Assumptions C37_zero_set.
Print Assumptions C37_non_zero_set.
Print Assumptions C37_eq_set.
Print Assumptions C37_ge_set.
Print Assumptions C37_le_set.
Print Assumptions C37_gt_set_partial.
Print Assumptions C37_lt_set_partial.
Print Assumptions C37_ne_set_partial.
Print Assumptions C37_select.
Print Assumptions C37_cond_partial.
Print Assumptions C37_indicator.
Print Assumptions C37_set_operations.
Print Assumptions C37_gt_set_refuted.
Print Assumptions C37_cond_refuted.
