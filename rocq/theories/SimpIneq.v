(** eliminate_divs_ineq keeps the integer points. *)
From Coq Require Import ZArith List Bool Lia Arith Permutation.
From Verif Require Import SeqModel SeqSpec SeqProofs MatModel BMapModel BMapSpec BMapSem BMapLists BMapNorm BMapGauss BMapGauss2 BMapOrder BDupModel BDupProofs BElimModel BElimSpec BElimSort BElimCols BElimProofs BElimFM BElimVars SimpModel SimpSpec SimpBase SimpDrop SimpDivs SimpShift SimpDups.
Import ListNotations.
Open Scope Z_scope.

(** ** a variable that does not appear stays out *)
Definition divz (c : nat) (r : list Z) : Prop := hd 0 r <> 0 -> nth (2 + c) r 0 = 0.
Definition fresh (c : nat) (b : bmap) : Prop := zcol c b /\ Forall (divz c) (b_div b).
Lemma normalize_div_row_z c r : nth (2 + c) r 0 = 0 -> nth (2 + c) (normalize_div_row r) 0 = 0.
Proof.
  intros H. unfold normalize_div_row. destruct (_ =? 0); [exact H|]. destruct (_ =? 1); [exact H|]. cbn [Nat.add nth]. apply scale_down_0. rewrite nth_skipn. exact H.
Qed.
Lemma elim_div_z c eq pos kd ld k d : zrow c eq -> divz c d -> divz c (elim_div eq pos kd ld k d).
Proof.
  intros He Hd. unfold elim_div. destruct (Z.eqb_spec (hd 0 d) 0); [exact Hd|]. destruct (_ =? 0); [exact Hd|]. destruct (match ld with None => true | Some l => kd && Nat.ltb l k end).
  - pose proof (seq_elim_0 (tl d) eq (1 + pos) (hd 0 d) (1 + c)) as S0. destruct (seq_elim (tl d) eq (1 + pos) (hd 0 d)) as [e m]. cbn [fst] in S0. intros _. apply normalize_div_row_z. change (nth (1 + c) e 0 = 0). apply S0; [rewrite nth_tl; apply Hd; assumption|exact He].
  - intros H. destruct d as [|x [|y d]]; [reflexivity|reflexivity|]. exfalso. apply H. reflexivity.
Qed.
Lemma elim_divs_z c eq pos kd ld : zrow c eq -> forall l k, Forall (divz c) l -> Forall (divz c) (elim_divs eq pos kd ld k l).
Proof. intros He. induction l as [|d l IH]; intros k F; cbn [elim_divs]; [constructor|]. inversion_clear F. constructor; [apply elim_div_z; assumption|apply IH; assumption]. Qed.
Lemma divz_lset c l i a : Forall (divz c) l -> divz c a -> Forall (divz c) (lset l i a).
Proof. revert i. induction l as [|x l IH]; intros [|i] F A; cbn; auto; inversion_clear F; constructor; auto. Qed.
Lemma gauss_step_f c b done k v : fresh c b -> fresh c (fst (gauss_step b done k v)).
Proof.
  intros [H D]. split; [apply gauss_step_z; exact H|]. unfold gauss_step. set (b1 := if Nat.eqb k done then b else set_eq b (lswap (b_eq b) k done)).
  assert (Z1 : fresh c b1) by (unfold b1; destruct (Nat.eqb k done); [split; assumption|]; split; [split; [apply lswap_z; apply H|apply H]|exact D]).
  cbn zeta. set (b2 := if _ <? 0 then _ else b1). assert (Z2 : fresh c b2) by (unfold b2; destruct (_ <? 0); [|exact Z1]; split; [split; [apply lset_z; [apply Z1|apply neg_z, nth_z, Z1]|apply Z1]|apply Z1]).
  set (b3 := eliminate_var_using_equality b2 v _ _ _). assert (Z3 : fresh c b3) by (split; [apply eliminate_z; [apply nth_z, Z2|apply Z2]|apply elim_divs_z; [apply nth_z, Z2|apply Z2]]). clearbody b3.
  destruct (Nat.leb (nvar b3) v); [|apply Z3]. unfold set_div_from_eq. destruct (negb _); [apply Z3|]. destruct (eq_involves_unknown_divs _ _ _); [apply Z3|]. cbn [fst]. cbn [b_div set_div]. apply divz_lset; [apply Z3|].
  intros _. change (nth (1 + c) (zupd (seq_neg (nth done (b_eq b3) [])) (1 + nvar b3 + (v - nvar b3)) 0) 0 = 0). rewrite nth_zupd. destruct (_ && _); [reflexivity|]. rewrite nth_seq_neg. assert (Z0 : zrow c (nth done (b_eq b3) [])) by (apply nth_z, Z3). unfold zrow in Z0. lia.
Qed.
Lemma gauss_loop_f c : forall fuel b p done lv b' p' n, gauss_loop fuel b p done lv = Ok (b', p', n) -> fresh c b -> fresh c b'.
Proof.
  induction fuel as [|fuel IH]; intros b p done lv b' p' n; cbn [gauss_loop]; [discriminate|]. destruct (Nat.leb _ _); [intros [= <- <- <-]; auto|]. destruct lv as [|v]; [intros [= <- <- <-]; auto|].
  destruct (find_eq b done (1 + v)) as [k|]; [|apply IH]. pose proof (gauss_step_f c b done k v) as G. destruct (gauss_step b done k v) as [b1 p1]. cbn [fst] in G. intros E H. apply (IH _ _ _ _ _ _ _ E). apply G. exact H.
Qed.
Lemma set_to_empty_f c b : fresh c b -> fresh c (set_to_empty b).
Proof. intros [H D]. split; [apply set_to_empty_z; exact H|]. unfold set_to_empty. destruct (_ && _); [exact D|constructor]. Qed.
Lemma gauss_f c b b' p : wf b -> ordered b -> gauss b = Ok (b', p) -> fresh c b -> fresh c b'.
Proof.
  unfold gauss. intros W O. destruct (order_divs b) as [b1| | |] eqn:EO; try discriminate. apply order_divs_ordered in EO; [|exact W|exact O]. subst b1.
  unfold gauss_ordered. destruct (gauss_loop _ _ _ _ _) as [[[b1 p1] n]| | |] eqn:E; try discriminate. intros G H. pose proof (gauss_loop_f c _ _ _ _ _ _ _ _ E H) as Z1.
  destruct (Nat.eqb _ _); [injection G as <- <-; exact Z1|]. destruct (existsb _ _); injection G as <- <-; [apply set_to_empty_f; exact Z1|]. split; [split; [apply firstn_z|]; apply Z1|apply Z1].
Qed.
Lemma normalize_f c b : fresh c b -> wf b -> fresh c (normalize_constraints b).
Proof.
  intros [H D] W. split; [apply normalize_constraints_z; exact H|]. destruct (b_empty (normalize_constraints b)) eqn:E.
  - unfold normalize_constraints in *. destruct (normalize_eqs _ _ _); [|apply set_to_empty_f; split; assumption]. cbn zeta in *. destruct (normalize_ineqs _ _ _); [exact D|]. unfold set_to_empty. destruct (_ && _); [exact D|constructor].
  - destruct (normalize_constraints_ok b W) as (_ & _ & DV & _). destruct (DV E) as (_ & _ & ->). exact D.
Qed.
Lemma remove_dup_f hash c b b' p : b_empty b = false \/ b_ineq b = [] -> remove_duplicate_constraints hash b false = Ok (b', p) -> fresh c b -> fresh c b'.
Proof.
  intros Em E [H D]. destruct Em as [Em|Ne].
  - split; [apply (remove_dup_z hash c b b' p E H)|]. destruct (remove_dup_div hash b b' p Em E) as [[-> _]|[-> _]]; [exact D|constructor].
  - unfold remove_duplicate_constraints in E. rewrite Ne in E. cbn in E. injection E as <- <-. split; assumption.
Qed.
Section Tab.
Variable hash : list Z -> nat.
Variable no_redundant : bmap -> bool.
Variable tab : bmap -> bool * list kind.
Hypothesis TAB : sound_tab tab.
Lemma redund_f c b b' : good b -> ordered b -> remove_redundancies no_redundant tab b = Ok b' -> fresh c b -> fresh c b'.
Proof.
  intros G O. unfold remove_redundancies. destruct (gauss b) as [[b1 p]| | |] eqn:EG; try discriminate. destruct (gauss_pres b b1 p G EG) as (P1 & O1 & _). intros H F. pose proof (gauss_f c b b1 p (proj1 G) O EG F) as F1. revert H.
  destruct (b_empty b1) eqn:E1; [intros [= <-]; auto|]. destruct (no_redundant b1); [intros [= <-]; auto|]. destruct (Nat.leb _ _); [intros [= <-]; auto|].
  destruct (sort_constraints_ok b1) as (l & -> & PE & _). set (b2 := set_ineq b1 l). pose proof P1 as (_ & G1 & _). pose proof G1 as ((We & Wi & Wd) & _).
  assert (W2 : wf b2) by (split; [exact We|]; split; [|exact Wd]; unfold rows_of, b2; cbn; apply (proj1 (Forall_perm _ _ _ PE)); exact Wi).
  assert (F2 : fresh c b2) by (split; [split; [apply F1|]; apply (proj1 (Forall_perm _ _ _ PE)); apply F1|apply F1]).
  destruct (tab b2) as [e ks]. unfold update_from_tab. set (b3 := if e then set_to_empty b2 else update_loop (length (b_ineq b2)) ks b2). cbn zeta. fold b3.
  assert (F3 : fresh c b3 /\ wf b3 /\ ordered b3).
  { unfold b3. destruct e; [split; [apply set_to_empty_f; exact F2|]; split; [apply set_to_empty_wf; exact W2|]; unfold set_to_empty; cbn [b_empty b2 set_ineq]; rewrite E1; apply ordered_nil; reflexivity|].
    destruct (update_loop_ok ks (length (b_ineq b2)) b2 ltac:(lia) W2) as (S1 & W1 & D1 & Z1 & _). destruct (shape_nvar _ _ S1) as [NV _]. split; [split; [apply Z1; apply F2|rewrite D1; apply F2]|]. split; [exact W1|]. unfold ordered, ndiv in *. rewrite D1, NV. exact O1. }
  clearbody b3. destruct F3 as (F3 & W3 & O3). destruct (negb _); [|intros [= <-]; exact F3]. destruct (gauss b3) as [[b4 p4]| | |] eqn:EG3; try discriminate. intros [= <-]. apply (gauss_f c b3 b4 p4 W3 O3 EG3 F3).
Qed.

(** ** the elimination *)
Lemma loosened_pres b b' : good b -> loosened b b' -> pres b b' /\ (ordered b -> ordered b').
Proof.
  intros G (E & L & WW & K). pose proof G as (W & A & D & I & R & B). assert (NV : nvar b' = nvar b) by (rewrite E; reflexivity). assert (ND : ndiv b' = ndiv b) by exact L.
  split.
  - apply pres_same; auto.
    + rewrite E. repeat split. cbn [b_div set_div]. exact L.
    + apply (loosened_acyclic b); [|exact A]. split; [exact E|]. auto.
    + apply (Forall_nth_iff _ _ []). intros k Hk. destruct (K k) as [H|H]; [lia|]. rewrite H. apply (proj1 (Forall_nth_iff _ _ []) D). unfold ndiv in *. lia.
    + intros v _ _. rewrite E. reflexivity.
    + intros _ v _ _ _ DV k Hk. destruct (K k) as [H|H]; [left; exact H|]. rewrite H. apply DV. unfold ndiv in *. lia.
    + intros _ H. rewrite E. exact H.
  - intros O k j Hk Hj Hh. destruct (K k) as [H|H]; [congruence|]. rewrite H in *. rewrite NV. apply O; auto. lia.
Qed.
Lemma scale_1 v : scale 1 v = v. Proof. unfold scale. rewrite <- (map_id v) at 2. apply map_ext. intros. ring. Qed.
Lemma fm_pres b d l' : good b -> (d < ndiv b)%nat -> hd 0 (nth d (b_div b) []) = 0 -> Forall (divz (nvar b + d)) (b_div b) -> Forall (zrow (nvar b + d)) (b_eq b) ->
  (forall r, In r (b_ineq b) -> Z.abs (coef (nvar b + d) r) <= 1) ->
  fm_loop (S (length (b_ineq b))) (nvar b + d) (b_ineq b) (length (b_ineq b)) = Ok l' -> pres b (set_ineq b l') /\ fresh (nvar b + d) (set_ineq b l').
Proof.
  intros G Hd Hh Dz Ze Un EF. pose proof G as (W & A & D & I & R & B). pose proof W as (We & Wi & Wd). destruct (good_int b d G Hd) as [RF EM]. assert (TT : total b = (nvar b + ndiv b)%nat) by reflexivity. set (c := (nvar b + d)%nat) in *.
  destruct (fm_loop_ok c (1 + total b) ltac:(unfold c; lia) (S (length (b_ineq b))) (b_ineq b) (length (b_ineq b)) Wi ltac:(lia) ltac:(lia) ltac:(intros; lia)) as (l & E & R' & Z' & H). rewrite EF in E. injection E as <-.
  set (b' := set_ineq b l'). assert (F' : fresh c b') by (split; [split; [exact Ze|exact Z']|exact Dz]). split; [|exact F'].
  assert (UPD : forall v t, length v = (1 + total b)%nat -> Forall (zero_on v) (b_eq b) -> Forall (zero_on (zupd v (1 + c) t)) (b_eq b)).
  { intros v t Lv Se. apply Forall_forall. intros r Hr. unfold zero_on. rewrite upd_zero; [apply (proj1 (Forall_forall _ _) Se r Hr)| |unfold c; lia]. apply (proj1 (Forall_forall _ _) Ze r Hr). }
  apply pres_map; auto.
  - repeat split.
  - split; [exact We|]. split; [exact R'|exact Wd].
  - intros v Lv Hv [Se Si]. exists v. split; [exact Lv|]. split; [reflexivity|]. split; [exact Se|]. apply Forall_forall. intros r Hr. apply H in Hr. unfold nonneg_on. destruct Hr as [[Hr _]|(i & j & Hij & Op & ->)]; [apply (proj1 (Forall_forall _ _) Si r Hr)|].
    destruct (combined_ok c (1 + total b) (nth i (b_ineq b) []) (nth j (b_ineq b) [])) as (_ & _ & x & y & Hx & Hy & _ & DT); [apply rows_nth; [exact Wi|lia]|apply rows_nth; [exact Wi|lia]|unfold c; lia|exact Op|]. rewrite DT.
    pose proof (proj1 (Forall_nth_iff _ _ []) Si i ltac:(lia)) as S1. pose proof (proj1 (Forall_nth_iff _ _ []) Si j ltac:(lia)) as S2. unfold nonneg_on in *. nia.
  - intros v Lv Hv [Se Si]. destruct (fm_exists_bound c (1 + total b) (b_ineq b) l' v ltac:(unfold c; lia) Lv Wi) as (k & t & Hk & K1 & S1).
    + intros r Hr Hc. apply H. left. auto.
    + intros i j Hij Op. apply H. right. exists i, j. auto.
    + exact Si.
    + assert (k = 1) by (destruct K1 as [K1|(r & Hr & K1)]; [exact K1|]; specialize (Un r Hr); lia). subst k. rewrite scale_1 in S1. exists (zupd v (1 + c) t). split; [rewrite zupd_length; exact Lv|]. split; [apply firstn_zupd; unfold c; lia|]. split; [split; [apply UPD; [exact Lv|exact Se]|exact S1]|].
      intros H1 DV k Hk2. specialize (DV k Hk2). change (b_div b') with (b_div b). unfold division in *. destruct (Z.eq_dec (hd 0 (nth k (b_div b) [])) 0) as [Z0|Z0]; [left; exact Z0|]. right. destruct DV as [|DV]; [congruence|]. rewrite nth_zupd in DV. destruct (Nat.eqb_spec (1 + nvar b + k) (1 + c)) as [E|_].
      * exfalso. apply Z0. replace k with d by (unfold c in E; lia). exact Hh.
      * cbn [andb] in DV. rewrite dot_upd in DV by (unfold c; lia). rewrite nth_tl in DV. assert (Zc : nth (2 + c) (nth k (b_div b) []) 0 = 0) by (apply (proj1 (Forall_nth_iff _ _ []) Dz k Hk2); exact Z0). change (S (1 + c)) with (2 + c)%nat in DV. rewrite Zc in DV. lia.
  - congruence.
Qed.
Lemma find_eq_none c l : Forall (zrow c) l -> forall i, find_eq_from (1 + c) i l = None.
Proof. intros Ze. induction Ze as [|r l Hr Ze IH]; intros i; cbn [find_eq_from]; [reflexivity|]. unfold zrow in Hr. rewrite Hr. apply IH. Qed.
Lemma elim_one b d b' : good b -> ordered b -> (d < ndiv b)%nat -> Forall (zrow (nvar b + d)) (b_eq b) -> (forall r, In r (b_ineq b) -> Z.abs (coef (nvar b + d) r) <= 1) ->
  eliminate_vars hash no_redundant tab b (nvar b + d) 1 = Ok b' -> pres b b' /\ ordered b' /\ (b_empty b' = false -> ndiv b' = ndiv b /\ fresh (nvar b + d) b').
Proof.
  intros G O Hd Ze Un. unfold eliminate_vars. cbn [Nat.eqb]. assert (TT : total b = (nvar b + ndiv b)%nat) by reflexivity. cbn zeta.
  set (c := (nvar b + d)%nat) in *. destruct (remove_dependent_ok 1 b c) as [L1 H1]. destruct (clear_divs_ok 1 (remove_dependent b c 1) c) as [L2 H2].
  { destruct L1 as (E1 & N1 & _). unfold total, ndiv in *. rewrite N1. rewrite E1. cbn [nvar b_param b_in b_out set_div]. fold (nvar b). change (nvar (set_div b (b_div (remove_dependent b c 1)))) with (nvar b). unfold c. lia. }
  set (b1 := clear_divs (remove_dependent b c 1) c 1) in *. pose proof (loosened_trans _ _ _ L1 L2) as L. destruct (loosened_pres b b1 G L) as [P1 O1]. specialize (O1 O).
  pose proof L as (E1 & N1 & _ & _). assert (NV : nvar b1 = nvar b) by (rewrite E1; reflexivity). assert (ND : ndiv b1 = ndiv b) by exact N1. assert (EI : b_ineq b1 = b_ineq b) by (rewrite E1; reflexivity). assert (EE : b_eq b1 = b_eq b) by (rewrite E1; reflexivity).
  assert (NV1 : nvar (remove_dependent b c 1) = nvar b) by (destruct L1 as (-> & _); reflexivity).
  assert (ND1 : ndiv (remove_dependent b c 1) = ndiv b) by (destruct L1 as (_ & N & _); exact N).
  assert (Hh : hd 0 (nth d (b_div b1) []) = 0) by (apply H2; [lia|unfold range; rewrite NV1; unfold c; lia]).
  assert (Dz : Forall (divz c) (b_div b1)).
  { apply (Forall_nth_iff _ _ []). intros k Hk N. destruct L2 as (_ & _ & _ & K2). destruct (K2 k) as [K|K]; [fold b1 in K; congruence|]. fold b1 in K. rewrite K in *. apply H1; [unfold range; lia|exact N]. }
  pose proof P1 as (_ & G1 & _). destruct (good_int b1 d G1 ltac:(lia)) as [RF EM]. unfold elim_loop. replace (c + 0)%nat with c by lia.
  unfold elim_step. assert (FE : find_eq_from (1 + c) 0 (b_eq b1) = None) by (rewrite EE; apply find_eq_none; exact Ze).
  rewrite FE. unfold fm_step. rewrite EI. destruct (fm_loop _ _ _ _) as [l'| | |] eqn:EL; try discriminate. rewrite <- EI in EL.
  replace c with (nvar b1 + d)%nat in * by (unfold c; lia). destruct (fm_pres b1 d l' G1 ltac:(lia) Hh Dz) as [P2 F2]; [rewrite EE; exact Ze|rewrite EI; exact Un|exact EL|].
  pose proof (pres_trans _ _ _ P1 P2) as P12. pose proof P2 as (_ & G2 & _). set (b2 := set_ineq b1 l') in *. assert (O2 : ordered b2) by exact O1. assert (ND2 : ndiv b2 = ndiv b) by exact ND.
  destruct (_ && _).
  - destruct (remove_duplicate_constraints hash (normalize_constraints b2) false) as [[b3 p3]| | |] eqn:E3; try discriminate. destruct (gauss b3) as [[b4 p4]| | |] eqn:E4; try discriminate. destruct (remove_redundancies no_redundant tab b4) as [b5| | |] eqn:E5; try discriminate.
    pose proof (normalize_constraints_pres b2 G2 EM) as PN. pose proof PN as (_ & GN & _). pose proof (remove_dup_pres hash _ _ _ _ GN E3) as P3. pose proof P3 as (_ & G3 & _). destruct (gauss_pres b3 b4 p4 G3 E4) as (P4 & O4 & _). pose proof P4 as (_ & G4 & _).
    destruct (remove_redundancies_pres no_redundant tab TAB b4 b5 G4 E5) as [P5 O5].
    assert (EQ : (if b_empty b5 then Ok (b5, false) else Ok (b5, false)) = Ok (b5, false)) by (destruct (b_empty b5); reflexivity). rewrite EQ. intros [= <-].
    assert (TD : tidy (fun _ => False) b2) by (right; exact O2).
    pose proof (normalize_simplified (fun _ => False) b2 (proj1 G2) TD EM) as SN. pose proof SN as (_ & WN & TN & ON & _).
    assert (EN : b_empty (normalize_constraints b2) = false \/ b_ineq (normalize_constraints b2) = []) by (destruct (b_empty (normalize_constraints b2)) eqn:EN; [right; apply GN; exact EN|left; reflexivity]).
    destruct (dup_simplified (fun _ => False) hash _ WN TN EN) as (b3' & p3' & E3' & S3). rewrite E3 in E3'. injection E3' as <- <-. pose proof S3 as (_ & W3 & T3 & O3 & _). assert (O3' : ordered b3) by auto.
    destruct (gauss_simplified (fun _ => False) b3 W3 T3) as (b4' & p4' & E4' & S4 & _). rewrite E4 in E4'. injection E4' as <- <-. pose proof S4 as (_ & W4 & T4 & _).
    destruct (remove_redundancies_ok no_redundant tab TAB (fun _ => False) b4 W4 T4) as (b5' & E5' & S5 & _). rewrite E5 in E5'. injection E5' as <-.
    split; [eapply pres_trans; [exact P12|]; eapply pres_trans; [exact PN|]; eapply pres_trans; [exact P3|]; eapply pres_trans; eassumption|]. split; [exact O5|]. intros F.
    assert (ND5 : ndiv b5 = ndiv b2). { destruct S5 as (_ & _ & _ & _ & _ & _ & X5). destruct (X5 F) as [N5 F4]. destruct S4 as (_ & _ & _ & _ & _ & _ & X4). destruct (X4 F4) as [N4 F3]. destruct S3 as (_ & _ & _ & _ & _ & _ & X3). destruct (X3 F3) as [N3 FN]. destruct SN as (_ & _ & _ & _ & _ & _ & XN). destruct (XN FN) as [NN _]. congruence. }
    split; [congruence|]. apply (redund_f _ b4 b5 G4 O4 E5). apply (gauss_f _ b3 b4 p4 W3 O3' E4). apply (remove_dup_f hash _ _ _ _ EN E3). apply normalize_f; [exact F2|apply G2].
  - intros [= <-]. split; [exact P12|]. split; [exact O2|]. intros _. split; [exact ND2|exact F2].
Qed.
Lemma drop_fresh_pres b d : good b -> ordered b -> (d < ndiv b)%nat -> fresh (nvar b + d) b -> pres b (drop_div b d) /\ ordered (drop_div b d) /\ ndiv (drop_div b d) = (ndiv b - 1)%nat.
Proof.
  intros G O Hd [Zc Dz]. pose proof G as (W & A & D & _). destruct (good_int b d G Hd) as [RF EM]. assert (TT : total b = (nvar b + ndiv b)%nat) by reflexivity.
  assert (U : unused b d) by (intros k Hk _ N; apply (proj1 (Forall_nth_iff _ _ []) Dz k Hk N)).
  destruct (drop_div_ok b d W Hd Zc U) as (_ & _ & _ & ND & _ & _ & _ & _ & O' & _). split; [|auto].
  apply drop_div_pres; auto; [apply same_space_refl|]. intros v Lv Hv Sv. exists (nth (1 + nvar b + d) v 0). cbn zeta. replace (zupd v _ _) with v; [split; [exact Sv|]; intros DV k Hk _; apply DV; exact Hk|].
  apply list_eq; [symmetry; apply zupd_length|]. intros k Hk. rewrite nth_zupd. destruct (Nat.eqb_spec k (1 + nvar b + d)) as [->|]; [|reflexivity]. destruct (_ && _); reflexivity.
Qed.
Lemma elim_divs_ineq_loop_pres : forall n b p b' p', good b -> ordered b -> (n <= ndiv b)%nat -> elim_divs_ineq_loop hash no_redundant tab n b p = Ok (b', p') -> pres b b' /\ ordered b'.
Proof.
  induction n as [|d IH]; intros b p b' p' G O Hn; cbn [elim_divs_ineq_loop]; [intros [= <- <-]; split; [apply pres_refl; exact G|exact O]|]. cbn zeta.
  destruct (existsb _ (b_eq b)) eqn:EQ; [apply IH; auto; lia|]. destruct (existsb _ (b_ineq b)) eqn:EI; [apply IH; auto; lia|].
  destruct (eliminate_vars _ _ _ _ _ _) as [b1| | |] eqn:EV; try discriminate. destruct (elim_one b d b1 G O ltac:(lia)) as (P1 & O1 & F1); [| |exact EV|].
  - apply Forall_forall. intros r Hr. unfold zrow. destruct (Z.eqb_spec (nth (1 + nvar b + d) r 0) 0) as [E|E]; [exact E|]. exfalso. assert (X : existsb (fun r => negb (nth (1 + nvar b + d) r 0 =? 0)) (b_eq b) = true) by (apply existsb_exists; exists r; split; [exact Hr|]; destruct (Z.eqb_spec (nth (1 + nvar b + d) r 0) 0); [contradiction|reflexivity]). congruence.
  - intros r Hr. unfold coef. destruct (Z.ltb_spec 1 (Z.abs (nth (1 + (nvar b + d)) r 0))) as [E|E]; [|exact E]. exfalso. assert (X : existsb (fun r => 1 <? Z.abs (nth (1 + nvar b + d) r 0)) (b_ineq b) = true) by (apply existsb_exists; exists r; split; [exact Hr|]; apply Z.ltb_lt; exact E). congruence.
  - destruct (b_empty b1) eqn:E1; [intros [= <- <-]; auto|]. destruct (F1 eq_refl) as [N1 FR]. pose proof P1 as (SS & G1 & _). destruct (same_space_nvar _ _ SS) as [NV _].
    destruct (drop_fresh_pres b1 d G1 O1 ltac:(lia) ltac:(rewrite NV; exact FR)) as (P2 & O2 & N2). intros H. destruct (IH _ _ _ _ ltac:(apply P2) O2 ltac:(lia) H) as [P3 O3]. split; [|exact O3]. eapply pres_trans; [exact P1|]. eapply pres_trans; eassumption.
Qed.
Lemma eliminate_divs_ineq_pres b p b' p' : good b -> ordered b -> eliminate_divs_ineq hash no_redundant tab b p = Ok (b', p') -> pres b b' /\ ordered b'.
Proof. intros G O. apply elim_divs_ineq_loop_pres; auto. Qed.
End Tab.
