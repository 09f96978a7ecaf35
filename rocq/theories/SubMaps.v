(** Subtraction and the tests on maps. *)
From Coq Require Import ZArith List Bool Arith Lia Permutation.
From Verif Require Import SeqSpec SeqModel MatModel SeqProofs BMapLists BMapModel BMapSpec BMapSem BMapGauss2 BMapOrder ReorderModel LocalModel LocalSpec LocalProofs BElimModel BElimSpec BElimProofs BElimVars BElimCols SimpModel SimpSpec SimpBase SimpFinal SetModel SetSpec SetBase SetLift SetOps SetOps3 SetViews SetMaps SubModel SubSpec SubBase SubDivs SubLoop SubDisj.
Import ListNotations.
Open Scope Z_scope.

Lemma order_loop_known : forall fuel b i b', wf b -> LocalSpec.known (b_div b) -> order_divs_loop fuel b i = Ok b' -> LocalSpec.known (b_div b').
Proof.
  induction fuel as [|fuel IH]; intros b i b' W K; cbn [order_divs_loop]; [discriminate|]. destruct (Nat.leb_spec (ndiv b) i) as [L|L]; [intros [= <-]; exact K|]. cbn zeta. destruct (_ =? 0); [apply IH; assumption|]. pose proof (first_non_zero_ok (skipn (2 + nvar b + i) (nth i (b_div b) []))) as FN. destruct (seq_first_non_zero _) as [[|pos]|]; [discriminate| |apply IH; assumption].
  destruct FN as (FL & _). rewrite skipn_length, (div_len b i W L) in FL. unfold total in FL. assert (HP : (i + Datatypes.S pos < ndiv b)%nat) by lia. destruct (swap_div_ok b i (i + Datatypes.S pos) W L HP) as ((SH & W' & _) & _ & DV). apply IH; [exact W'|].
  intros k Hk. assert (ND : ndiv (swap_div b i (i + Datatypes.S pos)) = ndiv b) by apply SH. unfold ndiv in ND at 1. rewrite ND in Hk. specialize (DV k Hk). cbv zeta in DV. assert (HT : (tr i (i + Datatypes.S pos) k < ndiv b)%nat) by (apply tr_lt; assumption). specialize (K _ HT). destruct DV as (DV & _). rewrite <- !(hd_nth0 0) in * || idtac. destruct (nth k (b_div (swap_div b i (i + Datatypes.S pos))) []), (nth (tr i (i + Datatypes.S pos) k) (b_div b) []); cbn [hd nth] in *; congruence.
Qed.
Lemma order_same b b' : proper b -> order_divs b = Ok b' -> same b b' /\ ordered b' /\ b_empty b' = b_empty b.
Proof.
  intros P E. destruct (b_empty b) eqn:EE.
  - unfold order_divs in E. rewrite (flagged_unmark b EE) in E. rewrite order_flag in E. change (ndiv (flagged (unmark b))) with (ndiv (unmark b)) in E. fold (order_divs (unmark b)) in E. destruct (order_divs (unmark b)) as [b1| | |] eqn:E1; try discriminate. injection E as <-. destruct (order_divs_pres _ _ (proper_unmark b P) E1) as (PR & O & _). split; [apply flagged_same; assumption|]. split; [exact O|reflexivity].
  - destruct (order_divs_pres b b' (proper_good b P EE) E) as (PR & O & _ & F). split; [apply pres_same_points; [apply P|exact PR]|]. split; [exact O|congruence].
Qed.
Lemma known_divs b : has_known_divs b = true -> LocalSpec.known (b_div b).
Proof. unfold has_known_divs. rewrite forallb_forall. intros H i Hi. specialize (H _ (nth_In _ [] Hi)). destruct (nth i (b_div b) []); cbn in *; [discriminate|]. destruct (Z.eqb_spec z 0); [discriminate|assumption]. Qed.

Section Maps.
Variables (hash : row -> nat) (no_redundant : bmap -> bool) (tab : bmap -> bool * list kind) (fuel : nat) (no_sample : bmap -> bool).
Variables (emp : nat -> bmap -> bool) (red : nat -> bmap -> nat -> list bool) (kinds : nat -> bmap -> list kind).
Hypothesis TAB : sound_tab tab.
Hypothesis EMP : sound_emptiness emp.
Hypothesis RED : sound_redundancy red.
Hypothesis KIN : sound_kinds kinds.
Hypothesis SAM : sound_sample no_sample.
Variables (np ni no : nat).
Notation nv := (np + ni + no)%nat.
Notation point := (point np ni no).
Definition alive (b : bmap) : Prop := exists q, length q = (1 + nv)%nat /\ hd 0 q = 1 /\ points b q.
Lemma sample_adapt b q : proper b -> length q = (1 + nvar b)%nat -> hd 0 q = 1 -> no_sample b = true -> ~ points b q.
Proof. intros; apply SAM; assumption. Qed.
Lemma empty_sound b q : okb np ni no b -> point q -> bmap_is_empty no_sample b = true -> ~ points b q.
Proof. intros OK [L H]. apply (is_empty_sound no_sample sample_adapt np ni no b q OK L H). Qed.
Lemma empty_complete : complete_sample no_sample -> forall b, okb np ni no b -> bmap_is_empty no_sample b = false -> alive b.
Proof.
  intros C b (P & Z). unfold bmap_is_empty. destruct (b_empty b) eqn:E; [discriminate|]. pose proof (sized_nvar np ni no b Z) as NV. destruct (plain_universe b) eqn:U.
  - intros _. exists (1 :: repeat 0 nv). split; [cbn; rewrite repeat_length; reflexivity|]. split; [reflexivity|]. apply plain_universe_points; [exact P|exact U|cbn; rewrite repeat_length, NV; reflexivity|reflexivity].
  - intros H. destruct (C b P H) as (q & L & H1 & Q). exists q. rewrite NV in L. auto.
Qed.
Lemma split_x x : point x -> exists P I O, triple np ni no P I O /\ x = 1 :: P ++ I ++ O.
Proof.
  intros [L H]. destruct x as [|x0 x]; [discriminate L|]. cbn in L, H. subst x0. exists (firstn np x), (firstn ni (skipn np x)), (skipn ni (skipn np x)). split; [|f_equal; rewrite firstn_skipn, firstn_skipn; reflexivity]. split; [rewrite firstn_length; lia|]. split; [rewrite firstn_length, skipn_length; lia|rewrite !skipn_length; lia].
Qed.
Lemma point_x P I O : triple np ni no P I O -> point (1 :: P ++ I ++ O).
Proof. intros (A & B & C). split; [cbn; rewrite !app_length; lia|reflexivity]. Qed.
Lemma relates_rel l P I O : relates_any l P I O <-> any l (1 :: P ++ I ++ O).
Proof. reflexivity. Qed.
Lemma order_all : forall l l', okm np ni no l -> Forall (fun b => LocalSpec.known (b_div b)) l -> each order_divs l = Ok l' ->
  Forall (fun p => okb np ni no p /\ ordered p /\ LocalSpec.known (b_div p)) l' /\ forall x, point x -> (any l' x <-> any l x).
Proof.
  induction l as [|b l IH]; intros l' F K; cbn [each]; [intros [= <-]; split; [constructor|tauto]|]. inversion F as [|? ? B F']; subst. inversion K as [|? ? KB K']; subst. destruct (order_divs b) as [b1| | |] eqn:E1; cbn [bind]; try discriminate. destruct (each order_divs l) as [l1| | |] eqn:E2; cbn [bind]; try discriminate. intros [= <-]. destruct (IH l1 F' K' eq_refl) as (G & Q). destruct B as (P & Z). destruct (order_same b b1 P E1) as (SM & O & _).
  split; [constructor; [|exact G]|].
  - split; [apply (same_okb np ni no b); assumption|]. split; [exact O|]. exact (order_loop_known _ b 0 b1 (proj1 P) KB E1).
  - intros x Hx. assert (QB : points b x <-> points b1 x) by (apply SM; [rewrite (sized_nvar np ni no b Z); apply Hx|apply Hx]). specialize (Q x Hx). split; intros (c & [<-|I] & H); [exists b; split; [left; reflexivity|apply QB; exact H]| |exists b1; split; [left; reflexivity|apply QB; exact H]|].
    + destruct (proj1 Q (ex_intro _ c (conj I H))) as (c' & I' & H'). exists c'. split; [right; exact I'|exact H'].
    + destruct (proj2 Q (ex_intro _ c (conj I H))) as (c' & I' & H'). exists c'. split; [right; exact I'|exact H'].
Qed.
Lemma collect_diff_ok steps once b l ps : okb np ni no b -> okm np ni no l -> Forall (fun b => LocalSpec.known (b_div b)) l ->
  collect_diff hash no_redundant tab fuel no_sample emp red kinds steps once b l = Ok ps ->
  okm np ni no ps /\ (forall x, point x -> any ps x -> points b x /\ ~ any l x) /\ (ps = [] \/ once = false -> forall x, point x -> points b x -> ~ any l x -> any ps x) /\
  (complete_sample no_sample -> Forall alive ps).
Proof.
  intros OK F K. unfold collect_diff. destruct (bmap_is_empty no_sample b) eqn:EM.
  { intros [= <-]. split; [constructor|]. split; [intros x _ (c & [] & _)|]. split; [|intros _; constructor]. intros _ x Hx H. destruct (empty_sound b x OK Hx EM H). }
  destruct (order_divs b) as [b1| | |] eqn:E1; cbn [bind]; try discriminate. destruct (each order_divs l) as [l1| | |] eqn:E2; cbn [bind]; try discriminate. intros H. pose proof OK as (P & Z).
  destruct (order_same b b1 P E1) as (SM & O & FE). destruct (order_all l l1 F K E2) as (G & Q). assert (E0 : b_empty b1 = false) by (rewrite FE; unfold bmap_is_empty in EM; destruct (b_empty b); [discriminate|reflexivity]).
  pose proof (same_okb np ni no b b1 SM Z) as OK1. assert (QB : forall x, point x -> (points b x <-> points b1 x)) by (intros x Hx; apply SM; [rewrite (sized_nvar np ni no b Z); apply Hx|apply Hx]).
  assert (BMA : complete_sample no_sample -> alive b1). { intros C. destruct (empty_complete C b OK EM) as (q & L1 & H1 & Q1). exists q. split; [exact L1|]. split; [exact H1|]. apply QB; [split; assumption|exact Q1]. }
  destruct (search_loop_ok hash no_redundant tab fuel no_sample emp red kinds TAB EMP RED KIN sample_adapt np ni no b1 l1 once OK1 E0 G (complete_sample no_sample) empty_complete BMA _ _ ps (start_inv emp EMP np ni no b1 l1 once OK1 O E0 (complete_sample no_sample) _) H) as (PK & S1 & S2).
  assert (W : forall x, point x -> (wanted b1 l1 x <-> points b x /\ ~ any l x)).
  { intros x Hx. unfold wanted, rest. rewrite (QB x Hx), <- (Q x Hx). apply and_iff_compat_l. split.
    - intros R (c & I & Hc). apply (In_nth _ _ b1) in I as (j & Hj & <-). apply (R j ltac:(lia) Hc).
    - intros R j Hj Hc. apply R. exists (nth j l1 b1). split; [apply nth_In; lia|exact Hc]. }
  unfold piece_ok in PK. split; [eapply Forall_impl; [|exact PK]; cbn beta; tauto|]. split; [intros x Hx A; apply W; [exact Hx|apply S1; assumption]|]. split; [intros D x Hx A B; apply S2; [exact D|exact Hx|apply W; auto]|]. intros C. eapply Forall_impl; [|exact PK]. cbn beta. intros c [_ A]. apply A. exact C.
Qed.

(** ** disjointness *)
Lemma basic_disjoint_ok b1 b2 d : okb np ni no b1 -> okb np ni no b2 -> basic_disjoint hash no_redundant tab fuel no_sample b1 b2 = Ok d ->
  (d = true -> forall x, point x -> ~ (points b1 x /\ points b2 x)) /\ (complete_sample no_sample -> d = false -> exists x, point x /\ points b1 x /\ points b2 x).
Proof.
  intros O1 O2. unfold basic_disjoint. destruct (plain_disjoint b1 b2) eqn:PD; [intros [= <-]; split; [|discriminate]; intros _ x [L H] [A B]; apply (plain_disjoint_ok np ni no b1 b2 x); assumption|].
  destruct (bmap_is_empty no_sample b1) eqn:E1; [intros [= <-]; split; [|discriminate]; intros _ x Hx [A B]; apply (empty_sound b1 x O1 Hx E1 A)|]. destruct (bmap_is_empty no_sample b2) eqn:E2; [intros [= <-]; split; [|discriminate]; intros _ x Hx [A B]; apply (empty_sound b2 x O2 Hx E2 B)|].
  destruct (plain_universe b1) eqn:U1.
  { intros [= <-]. split; [discriminate|]. intros C _. destruct (empty_complete C b2 O2 E2) as (q & L & H & Q). exists q. split; [split; assumption|]. split; [|exact Q]. destruct O1 as (P1 & Z1). apply plain_universe_points; [exact P1|exact U1|rewrite (sized_nvar np ni no b1 Z1); exact L|exact H]. }
  destruct (plain_universe b2) eqn:U2.
  { intros [= <-]. split; [discriminate|]. intros C _. destruct (empty_complete C b1 O1 E1) as (q & L & H & Q). exists q. split; [split; assumption|]. split; [exact Q|]. destruct O2 as (P2 & Z2). apply plain_universe_points; [exact P2|exact U2|rewrite (sized_nvar np ni no b2 Z2); exact L|exact H]. }
  destruct (intersect hash no_redundant tab fuel b1 b2) as [t| | |] eqn:EI; cbn [bind]; try discriminate. intros [= <-]. destruct (intersect_ok no_redundant hash no_redundant tab fuel TAB b1 b2 t np ni no O1 O2 EI) as (OT & Q).
  assert (QX : forall x, point x -> (points t x <-> points b1 x /\ points b2 x)) by (intros x Hx; destruct (split_x x Hx) as (P & I & O & (LP & LI & LO) & ->); apply Q; assumption). split.
  - intros ET x Hx A. apply QX in A; [|exact Hx]. apply (empty_sound t x OT Hx ET A).
  - intros C ET. destruct (empty_complete C t OT ET) as (q & L & H & A). exists q. assert (Hx : point q) by (split; assumption). split; [exact Hx|]. apply QX; assumption.
Qed.
Lemma map_empty_ok l : okm np ni no l -> (map_is_empty no_sample l = true -> forall x, point x -> ~ any l x) /\ (complete_sample no_sample -> map_is_empty no_sample l = false -> exists x, point x /\ any l x).
Proof.
  intros F. unfold okm in F. rewrite Forall_forall in F. unfold map_is_empty. split.
  - rewrite forallb_forall. intros H x Hx (b & I & Q). apply (empty_sound b x (F b I) Hx (H b I) Q).
  - intros C H. assert (EX : exists b, List.In b l /\ bmap_is_empty no_sample b = false). { clear F. induction l as [|b l IH]; [discriminate|]. cbn [forallb] in H. destruct (bmap_is_empty no_sample b) eqn:E; [destruct (IH H) as (c & I & Q); exists c; split; [right; exact I|exact Q]|exists b; split; [left; reflexivity|exact E]]. }
    destruct EX as (b & I & E). destruct (empty_complete C b (F b I) E) as (q & L & H1 & Q). exists q. split; [split; assumption|]. exists b. auto.
Qed.
Lemma all_right_ok b1 : okb np ni no b1 -> forall l2 d, okm np ni no l2 -> all_right (basic_disjoint hash no_redundant tab fuel no_sample) b1 l2 = Ok d ->
  (d = true -> forall x, point x -> ~ (points b1 x /\ any l2 x)) /\ (complete_sample no_sample -> d = false -> exists x, point x /\ points b1 x /\ any l2 x).
Proof.
  intros O1. induction l2 as [|b2 l2 IH]; intros d F; cbn [all_right]; [intros [= <-]; split; [intros _ x _ (_ & c & [] & _)|discriminate]|]. inversion F as [|? ? O2 F']; subst. destruct (basic_disjoint hash no_redundant tab fuel no_sample b1 b2) as [e| | |] eqn:E; cbn [bind]; try discriminate. destruct (basic_disjoint_ok b1 b2 e O1 O2 E) as (A & B). destruct e.
  - intros H. destruct (IH d F' H) as (A' & B'). split.
    + intros D x Hx (Q & c & [<-|I] & R); [apply (A eq_refl x Hx); auto|apply (A' D x Hx); split; [exact Q|exists c; auto]].
    + intros C D. destruct (B' C D) as (x & Hx & Q & c & I & R). exists x. split; [exact Hx|]. split; [exact Q|]. exists c. split; [right; exact I|exact R].
  - intros [= <-]. split; [discriminate|]. intros C _. destruct (B C eq_refl) as (x & Hx & Q & R). exists x. split; [exact Hx|]. split; [exact Q|]. exists b2. split; [left; reflexivity|exact R].
Qed.
Lemma all_pairs_ok : forall l1 l2 d, okm np ni no l1 -> okm np ni no l2 -> all_pairs (basic_disjoint hash no_redundant tab fuel no_sample) l1 l2 = Ok d ->
  (d = true -> forall x, point x -> ~ (any l1 x /\ any l2 x)) /\ (complete_sample no_sample -> d = false -> exists x, point x /\ any l1 x /\ any l2 x).
Proof.
  induction l1 as [|b1 l1 IH]; intros l2 d F G; cbn [all_pairs]; [intros [= <-]; split; [intros _ x _ ((c & [] & _) & _)|discriminate]|]. inversion F as [|? ? O1 F']; subst. destruct (all_right (basic_disjoint hash no_redundant tab fuel no_sample) b1 l2) as [e| | |] eqn:E; cbn [bind]; try discriminate. destruct (all_right_ok b1 O1 l2 e G E) as (A & B). destruct e.
  - intros H. destruct (IH l2 d F' G H) as (A' & B'). split.
    + intros D x Hx ((c & [<-|I] & R) & Q); [apply (A eq_refl x Hx); auto|apply (A' D x Hx); split; [exists c; auto|exact Q]].
    + intros C D. destruct (B' C D) as (x & Hx & (c & I & R) & Q). exists x. split; [exact Hx|]. split; [|exact Q]. exists c. split; [right; exact I|exact R].
  - intros [= <-]. split; [discriminate|]. intros C _. destruct (B C eq_refl) as (x & Hx & Q & R). exists x. split; [exact Hx|]. split; [|exact R]. exists b1. split; [left; reflexivity|exact Q].
Qed.
Variable qsort : list bmap -> list bmap.
Hypothesis QS : forall l, Permutation l (qsort l).
Lemma plain_equal_any l1 l2 : okm np ni no l1 -> okm np ni no l2 -> map_plain_equal no_redundant tab qsort l1 l2 = Ok true -> forall x, point x -> (any l1 x <-> any l2 x).
Proof. intros F1 F2 E x Hx. destruct (split_x x Hx) as (P & I & O & (LP & LI & LO) & ->). apply (map_plain_equal_ok no_redundant hash no_redundant tab qsort TAB QS np ni no l1 l2 F1 F2 E P I O LP LI LO). Qed.
Lemma universe_any l : okm np ni no l -> map_plain_universe l = true -> forall x, point x -> any l x.
Proof. intros F U x Hx. destruct (split_x x Hx) as (P & I & O & (LP & LI & LO) & ->). apply (map_universe_any np ni no l P I O F U LP LI LO). Qed.
Lemma disjoint_ok l1 l2 d : okm np ni no l1 -> okm np ni no l2 -> map_is_disjoint hash no_redundant tab fuel no_sample qsort l1 l2 = Ok d ->
  (d = true -> forall x, point x -> ~ (any l1 x /\ any l2 x)) /\ (complete_sample no_sample -> d = false -> exists x, point x /\ any l1 x /\ any l2 x).
Proof.
  intros F1 F2. unfold map_is_disjoint. destruct (Nat.eqb_spec (length l1) 0) as [N1|N1]; [destruct l1; [|discriminate]; intros [= <-]; split; [intros _ x _ ((c & [] & _) & _)|discriminate]|]. destruct (Nat.eqb_spec (length l2) 0) as [N2|N2]; [destruct l2; [|discriminate]; intros [= <-]; split; [intros _ x _ (_ & (c & [] & _))|discriminate]|].
  destruct (map_empty_ok l1 F1) as (A1 & B1). destruct (map_empty_ok l2 F2) as (A2 & B2). destruct (map_is_empty no_sample l1); [intros [= <-]; split; [intros _ x Hx (A & _); apply (A1 eq_refl x Hx A)|discriminate]|]. destruct (map_is_empty no_sample l2); [intros [= <-]; split; [intros _ x Hx (_ & A); apply (A2 eq_refl x Hx A)|discriminate]|].
  destruct (map_plain_universe l1) eqn:U1; [intros [= <-]; split; [discriminate|]; intros C _; destruct (B2 C eq_refl) as (x & Hx & Q); exists x; split; [exact Hx|]; split; [apply universe_any; assumption|exact Q]|].
  destruct (map_plain_universe l2) eqn:U2; [intros [= <-]; split; [discriminate|]; intros C _; destruct (B1 C eq_refl) as (x & Hx & Q); exists x; split; [exact Hx|]; split; [exact Q|apply universe_any; assumption]|].
  destruct (map_plain_equal no_redundant tab qsort l1 l2) as [e| | |] eqn:E; cbn [bind]; try discriminate. destruct e; [|apply all_pairs_ok; assumption]. intros [= <-]. split; [discriminate|]. intros C _. destruct (B1 C eq_refl) as (x & Hx & Q). exists x. split; [exact Hx|]. split; [exact Q|]. apply (plain_equal_any l1 l2 F1 F2 E x Hx). exact Q.
Qed.

(** ** subtraction *)
Variable explicit_divs : list bmap -> res (list bmap).
Hypothesis EXP : sound_explicit explicit_divs.
Variable marked_disjoint : list bmap -> bool.
Lemma compute_divs_ok l l' : okm np ni no l -> map_compute_divs explicit_divs l = Ok l' ->
  okm np ni no l' /\ Forall (fun b => LocalSpec.known (b_div b)) l' /\ (Forall ordered l -> Forall ordered l') /\ forall x, point x -> (any l' x <-> any l x).
Proof.
  intros F. unfold map_compute_divs. destruct (forallb has_known_divs l) eqn:K.
  - intros [= <-]. split; [exact F|]. split; [|split; [auto|tauto]]. rewrite forallb_forall in K. apply Forall_forall. intros b I. apply known_divs. apply K. exact I.
  - intros E. destruct (EXP np ni no l l' F E) as (G & KO & Q). split; [exact G|]. split; [eapply Forall_impl; [|exact KO]; cbn beta; tauto|]. split; [intros _; eapply Forall_impl; [|exact KO]; cbn beta; tauto|]. intros x Hx. destruct (split_x x Hx) as (P & I & O & (LP & LI & LO) & ->). apply Q; assumption.
Qed.
Lemma remove_empty_ok (R : bmap -> Prop) l : Forall R l -> Forall R (remove_empty_parts l).
Proof. intros F. rewrite Forall_forall in *. intros b I. apply filter_In in I as [I _]. apply F. exact I. Qed.
Lemma remove_empty_any l x : any (remove_empty_parts l) x <-> any l x.
Proof.
  unfold any, remove_empty_parts. split; intros (b & I & Q); exists b; [apply filter_In in I as [I _]; auto|]. split; [|exact Q]. apply filter_In. split; [exact I|]. destruct Q as [E _]. rewrite E. reflexivity.
Qed.
Lemma union_disjoint_any l1 l2 : okm np ni no l1 -> okm np ni no l2 -> okm np ni no (map_union_disjoint l1 l2) /\ forall x, point x -> (any (map_union_disjoint l1 l2) x <-> any l1 x \/ any l2 x).
Proof. intros F1 F2. destruct (map_union_disjoint_ok hash np ni no l1 l2 F1 F2) as (F & Q). split; [exact F|]. intros x Hx. destruct (split_x x Hx) as (P & I & O & (LP & LI & LO) & ->). apply Q; assumption. Qed.
Lemma add_piece_ok d b : okm np ni no d -> okb np ni no b -> okm np ni no (add_piece d b) /\ forall x, point x -> (any (add_piece d b) x <-> any d x \/ points b x).
Proof.
  intros F O. unfold add_piece. assert (G : okm np ni no (add_basic_map [] b)) by (apply add_Q; [constructor|exact O]). destruct (union_disjoint_any d _ F G) as (H & Q). split; [exact H|]. intros x Hx. rewrite (Q x Hx). assert (E : any (add_basic_map [] b) x <-> points b x); [|tauto]. unfold any. rewrite (add_any (fun c => points c x)) by (intros c E [E' _]; congruence). split; [intros [(c & [] & _)|A]; exact A|auto].
Qed.
Lemma add_pieces_ok : forall ps d, okm np ni no d -> okm np ni no ps -> okm np ni no (fold_left add_piece ps d) /\ forall x, point x -> (any (fold_left add_piece ps d) x <-> any d x \/ any ps x).
Proof.
  induction ps as [|b ps IH]; intros d F G; cbn [fold_left]; [split; [exact F|]; intros x _; split; [auto|intros [A|(c & [] & _)]; exact A]|]. inversion G as [|? ? O G']; subst. destruct (add_piece_ok d b F O) as (F1 & Q1). destruct (IH _ F1 G') as (F2 & Q2). split; [exact F2|]. intros x Hx. rewrite (Q2 x Hx), (Q1 x Hx). split.
  - intros [[A|A]|(c & I & A)]; [auto|right; exists b; cbn; auto|right; exists c; cbn; auto].
  - intros [A|(c & [<-|I] & A)]; [auto|auto|right; exists c; auto].
Qed.
Lemma basic_subtract_ok steps b l d : okb np ni no b -> okm np ni no l -> Forall (fun b => LocalSpec.known (b_div b)) l ->
  basic_map_subtract hash no_redundant tab fuel no_sample emp red kinds steps b l = Ok d -> okm np ni no d /\ forall x, point x -> (any d x <-> points b x /\ ~ any l x).
Proof.
  intros OK F K. unfold basic_map_subtract. destruct (collect_diff _ _ _ _ _ _ _ _ steps false b l) as [ps| | |] eqn:E; cbn [bind]; try discriminate. intros [= <-]. destruct (collect_diff_ok steps false b l ps OK F K E) as (G & S1 & S2 & _). destruct (add_pieces_ok ps [] ltac:(constructor) G) as (H & Q). split; [exact H|]. intros x Hx. rewrite (Q x Hx). split.
  - intros [(c & [] & _)|A]. apply S1; assumption.
  - intros [A B]. right. apply S2; auto.
Qed.
Lemma subtract_loop_ok steps disj l2 : okm np ni no l2 -> Forall (fun b => LocalSpec.known (b_div b)) l2 -> forall l1 d r, okm np ni no l1 -> okm np ni no d ->
  subtract_loop hash no_redundant tab fuel no_sample emp red kinds qsort steps disj d l1 l2 = Ok r -> okm np ni no r /\ forall x, point x -> (any r x <-> any d x \/ any l1 x /\ ~ any l2 x).
Proof.
  intros F2 K2. induction l1 as [|b l1 IH]; intros d r F1 FD; cbn [subtract_loop]; [intros [= <-]; split; [exact FD|]; intros x _; split; [auto|intros [A|((c & [] & _) & _)]; exact A]|]. inversion F1 as [|? ? O F1']; subst. destruct (basic_map_subtract _ _ _ _ _ _ _ _ steps b l2) as [e| | |] eqn:E; cbn [bind]; try discriminate. destruct (basic_subtract_ok steps b l2 e O F2 K2 E) as (FE & QE).
  assert (UN : forall u, (if disj then Ok (map_union_disjoint d e) else map_union no_redundant tab qsort d e) = Ok u -> okm np ni no u /\ forall x, point x -> (any u x <-> any d x \/ any e x)).
  { intros u. destruct disj; [intros [= <-]; apply union_disjoint_any; assumption|]. intros H. destruct (map_union_ok no_redundant hash no_redundant tab qsort TAB QS np ni no d e u FD FE H) as (FU & QU). split; [exact FU|]. intros x Hx. destruct (split_x x Hx) as (P & I & O' & (LP & LI & LO) & ->). apply QU; assumption. }
  destruct (if disj then Ok (map_union_disjoint d e) else map_union no_redundant tab qsort d e) as [u| | |] eqn:EU; cbn [bind]; try discriminate. destruct (UN u eq_refl) as (FU & QU). intros H. destruct (IH u r F1' FU H) as (FR & QR). split; [exact FR|]. intros x Hx. rewrite (QR x Hx), (QU x Hx), (QE x Hx). split.
  - intros [[A|[A B]]|((c & I & A) & B)]; [auto| |]; right; (split; [|exact B]); [exists b|exists c]; cbn; auto.
  - intros [A|((c & [<-|I] & A) & B)]; [auto|auto|]. right. split; [exists c; auto|exact B].
Qed.
Lemma subtract_any steps l1 l2 r : okm np ni no l1 -> okm np ni no l2 ->
  map_subtract hash no_redundant tab fuel no_sample emp red kinds qsort explicit_divs marked_disjoint steps l1 l2 = Ok r -> okm np ni no r /\ forall x, point x -> (any r x <-> any l1 x /\ ~ any l2 x).
Proof.
  intros F1 F2. unfold map_subtract. destruct (map_plain_equal no_redundant tab qsort l1 l2) as [e| | |] eqn:E; cbn [bind]; try discriminate. destruct e.
  { intros [= <-]. split; [constructor|]. intros x Hx. pose proof (plain_equal_any l1 l2 F1 F2 E x Hx) as Q. split; [intros (c & [] & _)|intros [A B]; destruct (B (proj1 Q A))]. }
  destruct (map_is_disjoint _ _ _ _ _ _ l1 l2) as [d| | |] eqn:D; cbn [bind]; try discriminate. destruct (disjoint_ok l1 l2 d F1 F2 D) as (A & _). destruct d.
  { intros [= <-]. split; [exact F1|]. intros x Hx. specialize (A eq_refl x Hx). tauto. }
  destruct (map_compute_divs explicit_divs l1) as [m1| | |] eqn:C1; cbn [bind]; try discriminate. destruct (map_compute_divs explicit_divs l2) as [m2| | |] eqn:C2; cbn [bind]; try discriminate. destruct (compute_divs_ok l1 m1 F1 C1) as (G1 & _ & _ & Q1). destruct (compute_divs_ok l2 m2 F2 C2) as (G2 & K2 & _ & Q2). intros H.
  destruct (subtract_loop_ok steps _ (remove_empty_parts m2) (remove_empty_ok _ _ G2) (remove_empty_ok _ _ K2) (remove_empty_parts m1) [] r (remove_empty_ok _ _ G1) ltac:(constructor) H) as (FR & QR). split; [exact FR|]. intros x Hx. rewrite (QR x Hx), !remove_empty_any, (Q1 x Hx), (Q2 x Hx). split; [intros [(c & [] & _)|B]; exact B|auto].
Qed.

(** ** inclusion *)
Lemma diff_empty_ok steps b l e : okb np ni no b -> okm np ni no l -> Forall (fun b => LocalSpec.known (b_div b)) l -> diff_is_empty hash no_redundant tab fuel no_sample emp red kinds steps l b = Ok e ->
  (e = true -> forall x, point x -> points b x -> ~ ~ any l x) /\ (complete_sample no_sample -> e = false -> exists x, point x /\ points b x /\ ~ any l x).
Proof.
  intros OK F K. unfold diff_is_empty. destruct (b_empty b) eqn:EE; [intros [= <-]; split; [intros _ x _ [A _]; congruence|discriminate]|]. destruct (collect_diff _ _ _ _ _ _ _ _ steps true b l) as [ps| | |] eqn:E; cbn [bind]; try discriminate. intros [= <-]. destruct (collect_diff_ok steps true b l ps OK F K E) as (G & S1 & S2 & S3). destruct ps as [|p ps]; cbn [length Nat.eqb].
  - split; [|discriminate]. intros _ x Hx A B. destruct (S2 (or_introl eq_refl) x Hx A B) as (c & [] & _).
  - split; [discriminate|]. intros C _. specialize (S3 C). inversion S3 as [|? ? (q & L & H & Q) _]; subst. exists q. split; [split; assumption|]. apply S1; [split; assumption|]. exists p. split; [left; reflexivity|exact Q].
Qed.
Lemma map_diff_ok steps l2 : okm np ni no l2 -> Forall (fun b => LocalSpec.known (b_div b)) l2 -> forall l1 e, okm np ni no l1 -> map_diff_is_empty hash no_redundant tab fuel no_sample emp red kinds steps l1 l2 = Ok e ->
  (e = true -> forall x, point x -> any l1 x -> ~ ~ any l2 x) /\ (complete_sample no_sample -> e = false -> exists x, point x /\ any l1 x /\ ~ any l2 x).
Proof.
  intros F2 K2. induction l1 as [|b l1 IH]; intros e F1; cbn [map_diff_is_empty]; [intros [= <-]; split; [intros _ x _ (c & [] & _)|discriminate]|]. inversion F1 as [|? ? O F1']; subst. destruct (diff_is_empty _ _ _ _ _ _ _ _ steps l2 b) as [d| | |] eqn:E; cbn [bind]; try discriminate. destruct (diff_empty_ok steps b l2 d O F2 K2 E) as (A & B). destruct d.
  - intros H. destruct (IH e F1' H) as (A' & B'). split.
    + intros D x Hx (c & [<-|I] & Q); [apply (A eq_refl x Hx Q)|apply (A' D x Hx); exists c; auto].
    + intros C D. destruct (B' C D) as (x & Hx & (c & I & Q) & R). exists x. split; [exact Hx|]. split; [exists c; cbn; auto|exact R].
  - intros [= <-]. split; [discriminate|]. intros C _. destruct (B C eq_refl) as (x & Hx & Q & R). exists x. split; [exact Hx|]. split; [exists b; cbn; auto|exact R].
Qed.
(** membership is decidable for known local variables *)
Lemma any_contains_ok p : point p -> forall l, okm np ni no l -> Forall (fun b => LocalSpec.known (b_div b)) l -> Forall ordered l -> exists c, any_contains l p = Ok c /\ (c = true <-> any l p).
Proof.
  intros (L & H). induction l as [|b l IH]; intros F K O; cbn [any_contains]; [exists false; split; [reflexivity|]; split; [discriminate|intros (c & [] & _)]|]. inversion F as [|? ? B F']; subst. inversion K as [|? ? KB K']; subst. inversion O as [|? ? OB O']; subst. destruct (contains_point_ok np ni no b p B OB KB L H) as (c & -> & Q). cbn [bind]. destruct c.
  - exists true. split; [reflexivity|]. split; [|auto]. intros _. exists b. cbn. tauto.
  - destruct (IH F' K' O') as (c & -> & R). exists c. split; [reflexivity|]. rewrite R. split; [intros (d & I & D); exists d; cbn; auto|]. intros (d & [<-|I] & D); [apply Q in D; discriminate|exists d; auto].
Qed.
Lemma points_dec b x : okb np ni no b -> LocalSpec.known (b_div b) -> point x -> points b x \/ ~ points b x.
Proof.
  intros OK K Hx. destruct OK as (P & Z). destruct (order_divs_ok b ltac:(apply P) ltac:(apply P)) as (b1 & E & _). destruct (order_same b b1 P E) as (SM & O & _). assert (QB : points b x <-> points b1 x) by (apply SM; [rewrite (sized_nvar np ni no b Z); apply Hx|apply Hx]). assert (K1 : LocalSpec.known (b_div b1)) by (exact (order_loop_known _ b 0 b1 (proj1 P) K E)).
  destruct (contains_point_ok np ni no b1 x (same_okb np ni no b b1 SM Z) O K1 (proj1 Hx) (proj2 Hx)) as (c & _ & Q). destruct c; [left; apply QB; apply Q; reflexivity|right; intros A; apply QB in A; apply Q in A; discriminate].
Qed.
Lemma any_dec l x : okm np ni no l -> Forall (fun b => LocalSpec.known (b_div b)) l -> point x -> any l x \/ ~ any l x.
Proof.
  intros F K Hx. induction l as [|b l IH]; [right; intros (c & [] & _)|]. inversion F; subst. inversion K; subst. destruct (points_dec b x) as [A|A]; try assumption; [left; exists b; cbn; auto|]. destruct IH as [B|B]; try assumption; [left; destruct B as (c & I & Q); exists c; cbn; auto|right; intros (c & [<-|I] & Q); [auto|apply B; exists c; auto]].
Qed.
Lemma is_subset_any steps l1 l2 s : okm np ni no l1 -> okm np ni no l2 -> Forall ordered l2 -> complete_sample no_sample ->
  map_is_subset hash no_redundant tab fuel no_sample emp red kinds explicit_divs steps l1 l2 = Ok s -> (s = true <-> forall x, point x -> any l1 x -> any l2 x).
Proof.
  intros F1 F2 O2 C. unfold map_is_subset. destruct (map_empty_ok l1 F1) as (A1 & B1). destruct (map_empty_ok l2 F2) as (A2 & B2). destruct (map_is_empty no_sample l1) eqn:M1; [intros [= <-]; split; [|reflexivity]; intros _ x Hx Q; destruct (A1 eq_refl x Hx Q)|]. specialize (B1 C eq_refl).
  destruct (map_is_empty no_sample l2); [intros [= <-]; split; [discriminate|]; intros H; destruct B1 as (x & Hx & Q); destruct (A2 eq_refl x Hx (H x Hx Q))|]. destruct (map_plain_universe l2) eqn:U; [intros [= <-]; split; [|reflexivity]; intros _ x Hx _; apply universe_any; assumption|].
  destruct (map_compute_divs explicit_divs l2) as [m2| | |] eqn:C2; cbn [bind]; try discriminate. destruct (compute_divs_ok l2 m2 F2 C2) as (G2 & K2 & OO & Q2). specialize (OO O2).
  destruct (map_plain_singleton l1) eqn:SI.
  - unfold map_plain_singleton in SI. destruct l1 as [|b [|]]; try discriminate SI. cbn [singleton_subset]. destruct (extract_point b) as [p| | |] eqn:EP; cbn [bind]; try discriminate. inversion F1 as [|? ? OB _]; subst. assert (E0 : b_empty b = false). { cbn [map_is_empty forallb] in M1. unfold bmap_is_empty in M1. destruct (b_empty b); [discriminate M1|reflexivity]. }
    destruct (extract_point_ok np ni no b p OB SI E0 EP) as (Lp & Hp & UN). assert (PX : point p) by (split; assumption). destruct (any_contains_ok p PX m2 G2 K2 OO) as (c & -> & QC). intros [= <-]. rewrite QC, (Q2 p PX). split.
    + intros H x Hx (d & [<-|[]] & Q). apply UN in Q; [subst; exact H|apply Hx|apply Hx].
    + intros H. apply H; [exact PX|]. exists b. split; [left; reflexivity|]. apply UN; auto.
  - intros E. destruct (map_diff_ok steps m2 G2 K2 l1 s F1 E) as (A & B). split.
    + intros D x Hx Q. apply Q2; [exact Hx|]. destruct (any_dec m2 x G2 K2 Hx) as [R|R]; [exact R|destruct (A D x Hx Q R)].
    + intros H. destruct s; [reflexivity|]. destruct (B C eq_refl) as (x & Hx & Q & R). destruct R. apply Q2; [exact Hx|]. apply H; assumption.
Qed.
End Maps.
