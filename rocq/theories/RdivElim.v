(** Fourier-Motzkin elimination of a local variable that has an integer value
    between all pairs of bounds. *)
From Coq Require Import ZArith List Bool Lia Arith Permutation.
From Verif Require Import SeqModel SeqSpec SeqProofs MatModel BMapModel BMapSpec BMapSem BMapLists BMapNorm BMapGauss BMapGauss2 BMapOrder BDupModel BDupProofs BElimModel BElimSpec BElimSort BElimCols BElimProofs BElimFM BElimVars SimpModel SimpSpec SimpBase SimpDrop SimpDivs SimpShift SimpDups SimpIneq.
Import ListNotations.
Open Scope Z_scope.

(** values that satisfy what is left by the elimination of variable [c] can be
    extended to an integer value of the variable *)
Definition exactly (b : bmap) (c : nat) : Prop :=
  forall v, length v = (1 + total b)%nat -> hd 0 v = 1 -> Forall (zero_on v) (b_eq b) ->
    (forall r, In r (b_ineq b) -> coef c r = 0 -> 0 <= dot r v) ->
    (forall r s, In r (b_ineq b) -> In s (b_ineq b) -> 0 < coef c r -> coef c s < 0 -> 0 <= coef c r * dot s v - coef c s * dot r v) ->
    exists t, Forall (nonneg_on (zupd v (1 + c) t)) (b_ineq b).
Lemma fm_exact_pres b d l' : good b -> (d < ndiv b)%nat -> hd 0 (nth d (b_div b) []) = 0 -> Forall (divz (nvar b + d)) (b_div b) -> Forall (zrow (nvar b + d)) (b_eq b) ->
  exactly b (nvar b + d) ->
  fm_loop (S (length (b_ineq b))) (nvar b + d) (b_ineq b) (length (b_ineq b)) = Ok l' -> pres b (set_ineq b l') /\ fresh (nvar b + d) (set_ineq b l').
Proof.
  intros G Hd Hh Dz Ze Un EF. pose proof G as (W & A & D & I & R & B). pose proof W as (We & Wi & Wd). destruct (good_int b d G Hd) as [RF EM]. assert (TT : total b = (nvar b + ndiv b)%nat) by reflexivity. set (c := (nvar b + d)%nat) in *.
  destruct (fm_loop_ok c (1 + total b) ltac:(unfold c; lia) (S (length (b_ineq b))) (b_ineq b) (length (b_ineq b)) Wi ltac:(lia) ltac:(lia) ltac:(intros; lia)) as (l & E & R' & Z' & H). rewrite EF in E. injection E as <-.
  set (b' := set_ineq b l'). assert (F' : fresh c b') by (split; [split; [exact Ze|exact Z']|exact Dz]). split; [|exact F'].
  assert (UPD : forall v t, length v = (1 + total b)%nat -> Forall (zero_on v) (b_eq b) -> Forall (zero_on (zupd v (1 + c) t)) (b_eq b)).
  { intros v t Lv Se. apply Forall_forall. intros r Hr. unfold zero_on. rewrite upd_zero; [apply (proj1 (Forall_forall _ _) Se r Hr)| |unfold c; lia]. apply (proj1 (Forall_forall _ _) Ze r Hr). }
  apply pres_map; auto.
  - repeat split.
  - split; [exact We|]. split; [exact R'|exact Wd].
  - intros v Lv Hv [Se Si]. exists v. split; [exact Lv|]. split; [reflexivity|]. split; [exact Se|]. apply Forall_forall. intros r Hr. apply H in Hr. unfold nonneg_on. destruct Hr as [[Hr _]|(i & j & Hij & Op & ->)]; [apply (proj1 (Forall_forall _ _) Si r Hr)|].
    destruct (combined_ok c (1 + total b) (nth i (b_ineq b) []) (nth j (b_ineq b) [])) as (_ & _ & x & y & Hx & Hy & _ & DT); [apply rows_nth; [exact Wi|lia]|apply rows_nth; [exact Wi|lia]|unfold c; lia|exact Op|]. rewrite DT.
    pose proof (proj1 (Forall_nth_iff _ _ []) Si i ltac:(lia)) as S1. pose proof (proj1 (Forall_nth_iff _ _ []) Si j ltac:(lia)) as S2. unfold nonneg_on in *. nia.
  - intros v Lv [_ Hv] [Se Si]. destruct (Un v Lv (Hv RF) Se) as [t S1].
    + intros r Hr Hc. apply (proj1 (Forall_forall _ _) Si). apply H. left. auto.
    + intros r s Hr Hs Cr Cs. assert (K : exists x y, 0 < x /\ 0 < y /\ x * coef c r + y * coef c s = 0 /\ 0 <= x * dot r v + y * dot s v).
      { apply (In_nth _ _ []) in Hr as (i & Hi & <-). apply (In_nth _ _ []) in Hs as (j & Hj & <-). destruct (Nat.lt_trichotomy j i) as [L|[L|L]]; [| subst j; lia|].
        - assert (Op : opposed c (nth i (b_ineq b) []) (nth j (b_ineq b) [])) by (split; [lia|]; split; [lia|]; rewrite (Z.sgn_pos _ Cr), (Z.sgn_neg _ Cs); discriminate). destruct (combined_ok c (1 + total b) (nth i (b_ineq b) []) (nth j (b_ineq b) [])) as (_ & _ & x & y & Hx & Hy & C0 & DT); [apply rows_nth; [exact Wi|lia]|apply rows_nth; [exact Wi|lia]|unfold c; lia|exact Op|].
          exists x, y. repeat (split; [assumption|]). rewrite <- DT. apply (proj1 (Forall_forall _ _) Si). apply H. right. exists i, j. auto.
        - assert (Op : opposed c (nth j (b_ineq b) []) (nth i (b_ineq b) [])) by (split; [lia|]; split; [lia|]; rewrite (Z.sgn_pos _ Cr), (Z.sgn_neg _ Cs); discriminate). destruct (combined_ok c (1 + total b) (nth j (b_ineq b) []) (nth i (b_ineq b) [])) as (_ & _ & x & y & Hx & Hy & C0 & DT); [apply rows_nth; [exact Wi|lia]|apply rows_nth; [exact Wi|lia]|unfold c; lia|exact Op|].
          exists y, x. split; [exact Hy|]. split; [exact Hx|]. split; [lia|]. rewrite Z.add_comm, <- DT. apply (proj1 (Forall_forall _ _) Si). apply H. right. exists j, i. auto. }
      destruct K as (x & y & Hx & Hy & C0 & K). clear - Cr Cs Hx Hy C0 K. assert (E : y * (coef c r * dot s v - coef c s * dot r v) = coef c r * (x * dot r v + y * dot s v)) by (replace (coef c r * (x * dot r v + y * dot s v)) with ((x * coef c r) * dot r v + y * coef c r * dot s v) by ring; replace (x * coef c r) with (- (y * coef c s)) by lia; ring). assert (0 <= coef c r * (x * dot r v + y * dot s v)) by (apply Z.mul_nonneg_nonneg; lia). nia.
    + exists (zupd v (1 + c) t). split; [rewrite zupd_length; exact Lv|]. split; [apply firstn_zupd; unfold c; lia|]. split; [split; [apply UPD; [exact Lv|exact Se]|exact S1]|].
      intros H1 DV k Hk2. specialize (DV k Hk2). change (b_div b') with (b_div b). unfold division in *. destruct (Z.eq_dec (hd 0 (nth k (b_div b) [])) 0) as [Z0|Z0]; [left; exact Z0|]. right. destruct DV as [|DV]; [congruence|]. rewrite nth_zupd in DV. destruct (Nat.eqb_spec (1 + nvar b + k) (1 + c)) as [E|_].
      * exfalso. apply Z0. replace k with d by (unfold c in E; lia). exact Hh.
      * cbn [andb] in DV. rewrite dot_upd in DV by (unfold c; lia). rewrite nth_tl in DV. assert (Zc : nth (2 + c) (nth k (b_div b) []) 0 = 0) by (apply (proj1 (Forall_nth_iff _ _ []) Dz k Hk2); exact Z0). change (S (1 + c)) with (2 + c)%nat in DV. rewrite Zc in DV. lia.
  - congruence.
Qed.
Section Tab.
Variable hash : list Z -> nat.
Variable no_redundant : bmap -> bool.
Variable tab : bmap -> bool * list kind.
Hypothesis TAB : sound_tab tab.
Lemma elim_exact b d b' : good b -> ordered b -> (d < ndiv b)%nat -> Forall (zrow (nvar b + d)) (b_eq b) -> exactly b (nvar b + d) ->
  eliminate_vars hash no_redundant tab b (nvar b + d) 1 = Ok b' -> pres b b' /\ ordered b' /\ (b_empty b' = false -> ndiv b' = ndiv b /\ fresh (nvar b + d) b').
Proof.
  intros G O Hd Ze Un. unfold eliminate_vars. cbn [Nat.eqb]. assert (TT : total b = (nvar b + ndiv b)%nat) by reflexivity. cbn zeta.
  set (c := (nvar b + d)%nat) in *. destruct (remove_dependent_ok 1 b c) as [L1 H1]. destruct (clear_divs_ok 1 (remove_dependent b c 1) c) as [L2 H2].
  { destruct L1 as (E1 & N1 & _). unfold total, ndiv in *. rewrite N1. rewrite E1. cbn [nvar b_param b_in b_out set_div]. fold (nvar b). change (nvar (set_div b (b_div (remove_dependent b c 1)))) with (nvar b). unfold c. lia. }
  set (b1 := clear_divs (remove_dependent b c 1) c 1) in *. pose proof (loosened_trans _ _ _ L1 L2) as L. destruct (loosened_pres b b1 G L) as [P1 O1]. specialize (O1 O).
  pose proof L as (E1 & N1 & _ & _). assert (NV : nvar b1 = nvar b) by (rewrite E1; reflexivity). assert (ND : ndiv b1 = ndiv b) by exact N1. assert (EI : b_ineq b1 = b_ineq b) by (rewrite E1; reflexivity). assert (EE : b_eq b1 = b_eq b) by (rewrite E1; reflexivity).
  assert (NV1 : nvar (remove_dependent b c 1) = nvar b) by (destruct L1 as (-> & _); reflexivity).
  assert (ND1 : ndiv (remove_dependent b c 1) = ndiv b) by (destruct L1 as (_ & N & _); exact N).
  assert (Hh : hd 0 (nth d (b_div b1) []) = 0) by (apply H2; [lia|unfold range; rewrite NV1; unfold c; lia]).
  assert (Dz : Forall (divz c) (b_div b1)).
  { apply (Forall_nth_iff _ _ []). intros k Hk N. destruct L2 as (_ & _ & _ & K2). destruct (K2 k) as [K|K]; [fold b1 in K; congruence|]. fold b1 in K. rewrite K in *. apply H1; [unfold range; lia|exact N]. }
  pose proof P1 as (_ & G1 & _). destruct (good_int b1 d G1 ltac:(lia)) as [RF EM]. unfold elim_loop. replace (c + 0)%nat with c by lia.
  unfold elim_step. assert (FE : find_eq_from (1 + c) 0 (b_eq b1) = None) by (rewrite EE; apply find_eq_none; exact Ze).
  rewrite FE. unfold fm_step. rewrite EI. destruct (fm_loop _ _ _ _) as [l'| | |] eqn:EL; try discriminate. rewrite <- EI in EL.
  assert (UN1 : exactly b1 c) by (intros v; rewrite EE, EI; replace (total b1) with (total b) by (unfold total; lia); apply Un). replace c with (nvar b1 + d)%nat in * by (unfold c; lia). destruct (fm_exact_pres b1 d l' G1 ltac:(lia) Hh Dz) as [P2 F2]; [rewrite EE; exact Ze|apply UN1|exact EL|].
  pose proof (pres_trans _ _ _ P1 P2) as P12. pose proof P2 as (_ & G2 & _). set (b2 := set_ineq b1 l') in *. assert (O2 : ordered b2) by exact O1. assert (ND2 : ndiv b2 = ndiv b) by exact ND.
  destruct (_ && _).
  - destruct (remove_duplicate_constraints hash (normalize_constraints b2) false) as [[b3 p3]| | |] eqn:E3; try discriminate. destruct (gauss b3) as [[b4 p4]| | |] eqn:E4; try discriminate. destruct (remove_redundancies no_redundant tab b4) as [b5| | |] eqn:E5; try discriminate.
    pose proof (normalize_constraints_pres b2 G2 EM) as PN. pose proof PN as (_ & GN & _). pose proof (remove_dup_pres hash _ _ _ _ GN E3) as P3. pose proof P3 as (_ & G3 & _). destruct (gauss_pres b3 b4 p4 G3 E4) as (P4 & O4 & _). pose proof P4 as (_ & G4 & _).
    destruct (remove_redundancies_pres no_redundant tab TAB b4 b5 G4 E5) as [P5 O5].
    assert (EQ : (if b_empty b5 then Ok (b5, false) else Ok (b5, false)) = Ok (b5, false)) by (destruct (b_empty b5); reflexivity). rewrite EQ. intros [= <-].
    assert (TD : tidy (fun _ => False) b2) by (right; exact O2).
    pose proof (normalize_simplified (fun _ => False) b2 (proj1 G2) TD EM) as SN. pose proof SN as (_ & WN & TN & ON & _).
    assert (EN : b_empty (normalize_constraints b2) = false \/ b_ineq (normalize_constraints b2) = []) by (destruct (b_empty (normalize_constraints b2)) eqn:EN; [right; apply GN; exact EN|left; reflexivity]).
    destruct (dup_simplified (fun _ => False) hash _ WN TN EN) as (b3' & p3' & E3' & S3). rewrite E3 in E3'. injection E3' as <- <-. pose proof S3 as (_ & W3 & T3 & O3 & _). assert (O3' : ordered b3) by auto.
    destruct (gauss_simplified (fun _ => False) b3 W3 T3) as (b4' & p4' & E4' & S4 & _). rewrite E4 in E4'. injection E4' as <- <-. pose proof S4 as (_ & W4 & T4 & _).
    destruct (remove_redundancies_ok no_redundant tab TAB (fun _ => False) b4 W4 T4) as (b5' & E5' & S5 & _). rewrite E5 in E5'. injection E5' as <-.
    split; [eapply pres_trans; [exact P12|]; eapply pres_trans; [exact PN|]; eapply pres_trans; [exact P3|]; eapply pres_trans; eassumption|]. split; [exact O5|]. intros F.
    assert (ND5 : ndiv b5 = ndiv b2). { destruct S5 as (_ & _ & _ & _ & _ & _ & X5). destruct (X5 F) as [N5 F4]. destruct S4 as (_ & _ & _ & _ & _ & _ & X4). destruct (X4 F4) as [N4 F3]. destruct S3 as (_ & _ & _ & _ & _ & _ & X3). destruct (X3 F3) as [N3 FN]. destruct SN as (_ & _ & _ & _ & _ & _ & XN). destruct (XN FN) as [NN _]. congruence. }
    split; [congruence|]. apply (redund_f no_redundant tab _ b4 b5 G4 O4 E5). apply (gauss_f _ b3 b4 p4 W3 O3' E4). apply (remove_dup_f hash _ _ _ _ EN E3). apply normalize_f; [exact F2|apply G2].
  - intros [= <-]. split; [exact P12|]. split; [exact O2|]. intros _. split; [exact ND2|exact F2].
Qed.
End Tab.
