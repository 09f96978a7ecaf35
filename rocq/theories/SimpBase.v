(** What every step of the simplification of a basic map maintains, and the
    steps that have been handled before. *)
From Coq Require Import ZArith List Bool Lia Arith Permutation.
From Verif Require Import SeqModel SeqSpec SeqProofs MatModel BMapModel BMapSpec BMapSem BMapLists BMapNorm BMapGauss BMapGauss2 BMapOrder BDupModel BDupProofs BElimModel BElimSpec BElimSort BElimCols BElimProofs BElimFM BElimVars SimpModel SimpSpec.
Import ListNotations.
Open Scope Z_scope.

Lemma same_space_refl b : same_space b b. Proof. repeat split. Qed.
Lemma pres_refl b : good b -> pres b b.
Proof. intros G. split; [apply same_space_refl|]. split; [exact G|]. intros q _ _. reflexivity. Qed.
Lemma pres_trans a b c : pres a b -> pres b c -> pres a c.
Proof.
  intros (A1 & A2 & A3) (B1 & B2 & B3). split; [eapply same_space_trans; eassumption|]. split; [exact B2|]. destruct (same_space_nvar _ _ A1) as [NV RT].
  intros q Lq Hq. rewrite (A3 q Lq Hq). apply B3; [lia|rewrite RT; exact Hq].
Qed.
Lemma shape_same b b' : shape b b' -> same_space b b'. Proof. intros (A & B & C & D & E & F). repeat split; assumption. Qed.
Lemma adm_app rat p e : p <> [] -> admissible rat p -> admissible rat (p ++ e).
Proof. destruct p; [congruence|]. intros _. exact (fun H => H). Qed.
Lemma len_ne {A} (l : list A) n : length l = S n -> l <> []. Proof. destruct l; cbn; [lia|congruence]. Qed.
Lemma hd_app (p e : list Z) : p <> [] -> hd 0 (p ++ e) = hd 0 p. Proof. destruct p; [congruence|reflexivity]. Qed.

(** two systems with the same solutions up to the values of the local variables *)
Lemma pres_gen b b' : good b -> same_space b b' -> wf b' -> acyclic b' -> denoms (b_div b') -> implied b' -> (b_rat b = true -> ndiv b' = O) -> bare b' -> b_empty b' = b_empty b ->
  (forall p e, length p = (1 + nvar b)%nat -> length e = ndiv b -> admissible (b_rat b) p -> system (b_eq b) (b_ineq b) (p ++ e) -> exists e', length e' = ndiv b' /\ system (b_eq b') (b_ineq b') (p ++ e')) ->
  (forall p e, length p = (1 + nvar b)%nat -> length e = ndiv b' -> admissible (b_rat b) p -> system (b_eq b') (b_ineq b') (p ++ e) -> exists e', length e' = ndiv b /\ system (b_eq b) (b_ineq b) (p ++ e')) ->
  pres b b'.
Proof.
  intros G SS W A D I R B E F1 F2. split; [exact SS|]. pose proof SS as (_ & _ & _ & RT). split; [repeat split; try apply W; try assumption; try (apply B; assumption); try (rewrite RT; assumption)|].
  intros q Lq Hq. unfold points, member, described. rewrite E. apply and_iff_compat_l. split; intros (e & Le & Se); [apply (F1 q e)|apply (F2 q e)]; assumption.
Qed.
(** two systems with the same solutions *)
Lemma pres_same b b' : good b -> shape b b' -> wf b' -> acyclic b' -> denoms (b_div b') ->
  (forall v, length v = (1 + total b)%nat -> admissible (b_rat b) v -> (system (b_eq b) (b_ineq b) v <-> system (b_eq b') (b_ineq b') v)) ->
  (b_rat b = false -> forall v, length v = (1 + total b)%nat -> hd 0 v = 1 -> system (b_eq b) (b_ineq b) v -> divisions (b_div b) (1 + nvar b) v -> divisions (b_div b') (1 + nvar b) v) ->
  (b_empty b = true -> b_ineq b = [] -> b_ineq b' = []) -> pres b b'.
Proof.
  intros G SH W A D SY DV EM. pose proof G as (W0 & A0 & D0 & I0 & R0 & B0). destruct (shape_nvar _ _ SH) as [NV NT]. pose proof SH as (S1 & S2 & S3 & S4 & S5 & S6).
  assert (TT : total b = (nvar b + ndiv b)%nat) by reflexivity.
  apply pres_gen; auto.
  - apply shape_same. exact SH.
  - intros v Lv Hv Sv. rewrite NV, NT in *. destruct (b_rat b) eqn:RT.
    + intros k Hk. specialize (R0 eq_refl). unfold ndiv in *. lia.
    + assert (AD : admissible false v) by (split; [lia|auto]). apply SY in Sv; [|exact Lv|exact AD]. apply DV; auto.
  - intros R. rewrite S4. auto.
  - intros E. rewrite S6 in E. destruct (B0 E) as (B1 & B2 & B3). unfold ndiv in S4, TT. rewrite B1 in S4, TT. split; [destruct (b_div b'); [reflexivity|discriminate S4]|]. split; [auto|].
    rewrite NV, S5. intros v Lv Hv H. apply (B3 v Lv Hv). apply (SY v); [cbn [length] in TT; lia|exact Hv|]. split; [exact H|]. rewrite EM; auto.
  - intros p e Lp Le Hp Sv. exists e. split; [congruence|]. apply SY; [rewrite app_length; lia|apply adm_app; [eapply len_ne; exact Lp|exact Hp]|exact Sv].
  - intros p e Lp Le Hp Sv. exists e. split; [congruence|]. apply SY; [rewrite app_length; lia|apply adm_app; [eapply len_ne; exact Lp|exact Hp]|exact Sv].
Qed.
(** marking a basic map without points empty *)
Lemma set_to_empty_space b : same_space b (set_to_empty b).
Proof. unfold set_to_empty. destruct (_ && _); repeat split. Qed.
Lemma pres_empty b b' : good b -> same_space b b' -> wf b' -> b_div b' = [] -> b_ineq b' = [] -> b_empty b' = true -> bare b' ->
  (forall q, length q = (1 + nvar b)%nat -> admissible (b_rat b) q -> ~ points b q) -> pres b b'.
Proof.
  intros G SS W D I E BA N. split; [exact SS|]. split.
  - split; [exact W|]. split; [exists (fun _ => O); intros k j Hk; unfold ndiv in Hk; rewrite D in Hk; cbn in Hk; lia|]. split; [rewrite D; constructor|]. split; [|split; [intros; unfold ndiv; rewrite D; reflexivity|exact BA]].
    intros v _ _ _ k Hk. rewrite D in Hk. cbn in Hk. lia.
  - intros q Lq Hq. split; [intros H; exfalso; apply (N q); assumption|intros [F _]; congruence].
Qed.
Lemma one_row n v : length v = S n -> 0 < hd 0 v -> ~ zero_on v (1 :: repeat 0 n).
Proof. destruct v as [|x v]; [discriminate|]. unfold zero_on. intros _ H. cbn [hd] in H. cbn [dot]. rewrite dot_repeat0. lia. Qed.
Lemma set_to_empty_bare' b : bare b -> bare (set_to_empty b).
Proof.
  intros B. unfold set_to_empty. destruct (b_empty b && _) eqn:E; [exact B|]. intros _. cbn. split; [reflexivity|]. split; [reflexivity|]. intros v Lv Hv H. inversion H as [|x l H1 H2]. apply (one_row _ v Lv) in H1; [exact H1|apply Hv].
Qed.
Lemma set_to_empty_bare b : bare b -> b_div (set_to_empty b) = [] /\ b_ineq (set_to_empty b) = [].
Proof. intros B. destruct (set_to_empty_bare' b B) as (H1 & H2 & _); [apply set_to_empty_flag|auto]. Qed.
Lemma pres_set_empty b : good b -> (forall q, length q = (1 + nvar b)%nat -> admissible (b_rat b) q -> ~ points b q) -> pres b (set_to_empty b).
Proof.
  intros G N. apply pres_empty; auto; [apply set_to_empty_space|apply set_to_empty_wf; apply G| | |apply set_to_empty_flag|apply set_to_empty_bare'; apply G]; apply set_to_empty_bare; apply G.
Qed.
Lemma set_nd_good b f : good b -> good (set_nd b f).
Proof. exact (fun H => H). Qed.

(** ** isl_basic_map_normalize_constraints *)
Lemma normalize_constraints_pres b : good b -> b_empty b = false -> pres b (normalize_constraints b).
Proof.
  intros G E. pose proof G as (W & A & D & I & R & B). destruct (normalize_constraints_ok b W) as (P & REL & DIV & W' & NV & RT). destruct (normalize_shape b) as (SS & NE & _). set (b' := normalize_constraints b) in *.
  destruct (b_empty b') eqn:E'.
  - destruct (NE E eq_refl) as [N1 N2]. apply pres_empty; auto; [intros _; split; [exact N2|split; [exact N1|]]|].
    { intros v Lv Hv H. pose proof (normalize_marks b E E') as M. fold b' in M. rewrite M in H. inversion H as [|x l H1 H2]. rewrite NV in Lv. apply (one_row _ v Lv) in H1; [exact H1|apply Hv]. }
    intros q Lq Hq H. apply (P q Lq Hq) in H. destruct H as [H _]. congruence.
  - destruct (DIV eq_refl) as (_ & _ & DV). split; [exact SS|]. assert (ND : ndiv b' = ndiv b) by (unfold ndiv; congruence). split; [|exact P].
    split; [exact W'|]. split; [apply (acyclic_ext b); assumption|]. split; [rewrite DV; exact D|]. split; [|split; [rewrite RT, ND; exact R|intros F; congruence]].
    intros v Lv Hv Sv. rewrite DV, NV. apply I; [unfold total in *; rewrite NV, ND in Lv; exact Lv|exact Hv|]. apply REL; auto. lia.
Qed.

(** ** isl_basic_map_order_divs *)
Lemma order_divs_pres b b' : good b -> order_divs b = Ok b' -> pres b b' /\ ordered b' /\ ndiv b' = ndiv b /\ b_empty b' = b_empty b.
Proof.
  intros G E. pose proof G as (W & A & D & I & R & B). destruct (order_divs_ok b W A) as (b1 & E1 & RN & O1 & D1 & LE & LI). rewrite E in E1. injection E1 as <-. pose proof RN as (SH & W' & _). pose proof SH as (S1 & S2 & S3 & S4 & S5 & S6).
  split; [|auto]. split; [apply shape_same; exact SH|]. split.
  - split; [exact W'|]. split; [apply ordered_acyclic; exact O1|]. split; [auto|]. split; [apply (renames_implied b); assumption|]. split; [rewrite S4, S5; exact R|]. intros F. rewrite S6 in F. destruct (B F) as (B1 & _). replace b' with b; [exact (B F)|]. unfold order_divs, ndiv in E. rewrite B1 in E. cbn [length Nat.mul] in E. cbn [order_divs_loop] in E. unfold ndiv in E. rewrite B1 in E. cbn in E. congruence.
  - intros q Lq _. apply renames_points; assumption.
Qed.

(** ** isl_basic_map_gauss *)
Lemma gauss_ordered_empty b b' p : gauss_ordered b = Ok (b', p) -> bare b -> wf b -> ordered b -> bare b'.
Proof.
  unfold gauss_ordered. intros E B W O. destruct (gauss_loop_ok (S (length (b_eq b) + total b)) b false 0 (total b) [] W O) as (b1 & p1 & ps & EG & S1 & Le & Li & RR); try (cbn; lia).
  { split; [cbn; lia|]. split; [cbn; intros; lia|]. split; [cbn; intros; lia|]. intros j c Hj Hc. destruct W as (We & _). apply nth_overflow. rewrite (rows_nth _ _ _ We) by lia. unfold total in *. cbn in Hc. lia. }
  rewrite EG in E. destruct S1 as ((S1 & S2 & S3 & S4 & S5 & S6) & _ & _ & _ & SY & _). assert (B1 : bare b1).
  { intros F. rewrite S6 in F. destruct (B F) as (B1 & B2 & B3). unfold ndiv in S4. rewrite B1 in S4. rewrite B2 in Li. split; [destruct (b_div b1); [reflexivity|discriminate S4]|]. assert (I1 : b_ineq b1 = []) by (destruct (b_ineq b1); [reflexivity|discriminate Li]). split; [exact I1|].
    unfold nvar. rewrite S1, S2, S3, S5. intros v Lv Hv H. apply (B3 v Lv Hv). apply SY. rewrite I1. split; [exact H|constructor]. }
  destruct (Nat.eqb_spec (length ps) (length (b_eq b1))) as [E'|E']; [injection E as <- <-; exact B1|]. destruct (existsb _ _) eqn:EX; injection E as <- <-; [apply set_to_empty_bare'; exact B1|].
  intros F. destruct (B1 F) as (F1 & F2 & F3). split; [exact F1|]. split; [exact F2|]. intros v Lv Hv H. apply (F3 v Lv Hv). destruct RR as [(LP & _ & _ & P4)|[F' _]]; [|contradiction]. unfold free_equality in H. cbn [b_eq set_eq] in H.
  assert (LE' : (length ps <= length (b_eq b1))%nat) by lia. replace (length (b_eq b1) - (length (b_eq b1) - length ps))%nat with (length ps) in H by lia. rewrite <- (firstn_skipn (length ps) (b_eq b1)). apply Forall_app. split; [exact H|]. apply Forall_forall. intros r Hr.
  destruct (In_nth _ r [] Hr) as (i & Hi & Ei). rewrite skipn_length in Hi. rewrite nth_skipn in Ei. unfold zero_on. rewrite dot_hd_tl, (dot_nth0 (tl r)).
  - assert (hd 0 r = 0); [|lia]. destruct (Z.eqb_spec (hd 0 r) 0) as [|NE]; [assumption|exfalso]. assert (existsb (fun r => negb (hd 0 r =? 0)) (skipn (length ps) (b_eq b1)) = true); [|congruence].
    apply existsb_exists. exists r. split; [exact Hr|]. destruct (Z.eqb_spec (hd 0 r) 0); [lia|reflexivity].
  - intros c. assert (nth (S c) r 0 = 0) by (rewrite <- Ei; apply P4; lia). destruct r; [destruct c; reflexivity|assumption].
Qed.
Lemma gauss_pres b b' p : good b -> gauss b = Ok (b', p) -> pres b b' /\ ordered b' /\ (b_empty b' = false -> b_empty b = false /\ ndiv b' = ndiv b).
Proof.
  intros G E. pose proof G as (W & A & D & I & R & B). destruct (gauss_ok b W A) as (b1 & p1 & E1 & SS & W' & O' & D' & P & _ & ND). rewrite E in E1. injection E1 as <- <-.
  assert (EM : b_empty b' = false -> b_empty b = false). { destruct (b_empty b) eqn:EB; [|auto]. intros F. rewrite (gauss_flag b b' p W A E EB) in F. discriminate. }
  assert (BB : bare b').
  { unfold gauss in E. destruct (order_divs b) as [b1| | |] eqn:EO; try discriminate. destruct (order_divs_pres b b1 G EO) as ((_ & (W1 & _ & _ & _ & _ & B1) & _) & O1 & _). apply (gauss_ordered_empty b1 b' p E B1 W1 O1). }
  split; [|split; [exact O'|intros F; split; [auto|apply ND; exact F]]]. destruct (same_space_nvar _ _ SS) as [NV RT]. split; [exact SS|]. split.
  - split; [exact W'|]. split; [apply ordered_acyclic; exact O'|]. split; [auto|]. destruct (b_empty b') eqn:E'.
    + destruct (BB E') as (B1 & B2 & _). split; [intros v _ _ _ k Hk; rewrite B1 in Hk; cbn in Hk; lia|]. split; [unfold ndiv; rewrite B1; auto|exact BB].
    + destruct (ND eq_refl) as [N1 N2]. split; [auto|]. split; [rewrite RT, N1; exact R|exact BB].
  - intros q Lq Hq. apply P; [exact Lq|apply Hq].
Qed.

(** ** isl_basic_map_remove_duplicate_constraints *)
Lemma opp_loop_bare hash detect : forall fuel t b k p b' p', b_empty b = false -> opp_loop hash fuel detect t b k p = Ok (b', p') -> bare b'.
Proof.
  induction fuel as [|fuel IH]; intros t b k p b' p' Em; cbn [opp_loop]; [discriminate|]. destruct (Nat.leb _ _); [intros [= <- <-] F; congruence|]. destruct (hash_index _ _ _ _ _) as [h| | |]; try discriminate.
  destruct (nth h t None) as [l|]; [|apply IH; exact Em]. cbn zeta. destruct (_ <? _).
  - destruct detect; [|apply IH; exact Em]. destruct (check_for_div_constraints b k l _) as [b1 p1] eqn:EC. apply IH. replace b1 with (fst (check_for_div_constraints b k l (hd 0 (nth k (b_ineq b) []) + hd 0 (nth l (b_ineq b) [])))) by (rewrite EC; reflexivity).
    clear EC. unfold check_for_div_constraints. generalize 0%nat as i. induction (ndiv b) as [|n IHn]; intros i; cbn [check_div_loop fst]; [exact Em|]. destruct (_ =? 0); [apply IHn|]. destruct (_ <=? _); [apply IHn|]. destruct (_ && _); exact Em.
  - destruct (_ =? 0); intros [= <- <-] F; [cbn in F; congruence|]. apply set_to_empty_bare'; [intros F'; congruence|apply set_to_empty_flag].
Qed.
Lemma remove_dup_pres hash b detect b' p : good b -> remove_duplicate_constraints hash b detect = Ok (b', p) -> pres b b'.
Proof.
  intros G E. pose proof G as (W & A & D & I & R & B). destruct (b_empty b) eqn:Em.
  { unfold remove_duplicate_constraints in E. destruct (B Em) as (_ & B2 & _). rewrite B2 in E. cbn in E. injection E as <- <-. apply pres_refl. exact G. }
  destruct (remove_duplicates_points hash b detect W Em) as (b1 & p1 & E1 & SS & W' & P & _ & ND & _). rewrite E in E1. injection E1 as <- <-. split; [exact SS|]. destruct (same_space_nvar _ _ SS) as [NV RT].
  assert (BB : bare b'). { unfold remove_duplicate_constraints in E. destruct (Nat.leb _ _); [injection E as <- <-; exact B|]. cbn zeta in E. destruct (dup_loop _ _ _ _ _ _) as [[[t l] q]| | |]; try discriminate. eapply opp_loop_bare; [|exact E]. exact Em. }
  split; [|intros q Lq Hq; apply P; [exact Lq|apply Hq]]. destruct (b_empty b') eqn:E'.
  - destruct (BB E') as (B1 & B2 & _). split; [exact W'|]. split; [apply ordered_acyclic, ordered_nil; exact B1|]. split; [rewrite B1; constructor|]. split; [intros v _ _ _ k Hk; rewrite B1 in Hk; cbn in Hk; lia|]. split; [unfold ndiv; rewrite B1; auto|exact BB].
  - destruct (ND eq_refl) as (N1 & N2 & N3 & N4). split; [exact W'|]. split; [auto|]. split; [auto|]. split; [auto|]. split; [rewrite RT, N1; exact R|exact BB].
Qed.

(** ** isl_basic_map_remove_redundancies *)
Lemma admissible_rat b v : good b -> hd 0 v = 1 -> admissible (b_rat b) v.
Proof. intros _ H. split; [lia|auto]. Qed.
Lemma update_from_tab_pres b e ks b' : good b -> b_empty b = false -> classified b e ks -> update_from_tab b e ks = Ok b' -> pres b b' /\ (ordered b -> ordered b').
Proof.
  intros G Em C. pose proof G as (W & A & D & I & R & B). unfold update_from_tab. set (b1 := if e then set_to_empty b else update_loop (length (b_ineq b)) ks b).
  assert (S1 : pres b b1 /\ (ordered b -> ordered b1)).
  { unfold b1, classified in *. destruct e.
    - split; [|intros _; apply ordered_nil; apply set_to_empty_bare; exact B]. apply pres_set_empty; [exact G|]. intros q Lq Hq (_ & v & Lv & Sv). apply (C (q ++ v)); [rewrite app_length; unfold total; lia|apply adm_app; [eapply len_ne; exact Lq|exact Hq]|exact Sv].
    - destruct (update_loop_ok ks (length (b_ineq b)) b ltac:(lia) W) as (S1 & W1 & D1 & _ & Q1). pose proof S1 as (_ & _ & _ & N1 & _). destruct (shape_nvar _ _ S1) as [NV NT]. split.
      + apply pres_same; auto.
        * apply (acyclic_ext b); assumption.
        * rewrite D1. exact D.
        * intros v Lv Hv. rewrite (Q1 v). rewrite skipn_all, firstn_all. rewrite (C v Lv Hv). split; [intros [? ?]; repeat split; auto|tauto].
        * intros _ v _ _ _. rewrite D1. auto.
        * intros F. congruence.
      + intros O. unfold ordered, ndiv in *. rewrite D1, NV. exact O. }
  destruct S1 as [S1 O1]. cbn zeta. destruct (negb _); [|intros [= <-]; auto].
  destruct (gauss b1) as [[b2 p]| | |] eqn:EG; try discriminate. intros [= <-]. destruct (gauss_pres b1 b2 p) as (P2 & O2 & _); [apply S1|exact EG|]. split; [eapply pres_trans; eassumption|auto].
Qed.
Section Tab.
Variable hash : list Z -> nat.
Variable no_redundant : bmap -> bool.
Variable tab : bmap -> bool * list kind.
Hypothesis TAB : sound_tab tab.
Lemma remove_redundancies_pres b b' : good b -> remove_redundancies no_redundant tab b = Ok b' -> pres b b' /\ ordered b'.
Proof.
  intros G. unfold remove_redundancies. destruct (gauss b) as [[b1 p]| | |] eqn:EG; try discriminate. destruct (gauss_pres b b1 p G EG) as (P1 & O1 & _).
  destruct (b_empty b1) eqn:E1; [intros [= <-]; auto|]. destruct (no_redundant b1); [intros [= <-]; auto|]. destruct (Nat.leb _ _); [intros [= <-]; auto|].
  destruct (sort_constraints_ok b1) as (l & -> & PE & _). set (b2 := set_ineq b1 l). pose proof P1 as (_ & G1 & _). pose proof G1 as ((We & Wi & Wd) & A & D & I & R & B).
  assert (W2 : wf b2) by (split; [exact We|]; split; [|exact Wd]; unfold rows_of, b2; cbn; apply (proj1 (Forall_perm _ _ _ PE)); exact Wi).
  assert (P2 : pres b1 b2).
  { apply pres_same; auto; [repeat split| |intros E; congruence]. intros v _ _. unfold system, b2. cbn. rewrite (Forall_perm _ _ _ PE). reflexivity. }
  destruct (tab b2) as [e ks] eqn:ET. intros EU. assert (G2 : good b2) by apply P2. destruct (update_from_tab_pres b2 e ks b' G2 E1) as [P3 O3]; [|exact EU|split; [|apply O3; exact O1]].
  - pose proof (TAB b2 (proj1 G2) E1) as C. rewrite ET in C. exact C.
  - apply (pres_trans _ b1); [exact P1|]. eapply pres_trans; eassumption.
Qed.
End Tab.
