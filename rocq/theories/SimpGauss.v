(** Gaussian elimination clears the pivot columns of the inequalities and of
    the known integer divisions as well. *)
From Coq Require Import ZArith List Bool Lia Arith Permutation.
From Verif Require Import SeqModel SeqSpec SeqProofs MatModel BMapModel BMapSpec BMapSem BMapLists BMapNorm BMapGauss BMapGauss2 BMapOrder BDupModel BDupProofs BElimModel BElimSpec BElimSort BElimCols BElimProofs BElimFM BElimVars SimpModel SimpSpec SimpBase SimpDrop SimpDivs SimpShift SimpDups SimpIneq.
Import ListNotations.
Open Scope Z_scope.

Definition clear (c : nat) (b : bmap) : Prop := Forall (zrow c) (b_ineq b) /\ Forall (divz c) (b_div b).

Lemma nth_tl_S (d : list Z) c : nth c (tl d) 0 = nth (S c) d 0. Proof. destruct d; [destruct c|]; reflexivity. Qed.
Lemma zeros_divz c n x : (1 <= n)%nat -> divz c (repeat 0 n ++ [x]).
Proof. intros Hn H. destruct n as [|n]; [lia|]. cbn in H. lia. Qed.
Lemma elim_div_z c eq pos kd ld k d : length d = S (length eq) -> (1 + pos < length eq)%nat -> nth (1 + pos) eq 0 <> 0 -> zrow c eq -> divz c d -> divz c (elim_div eq pos kd ld k d).
Proof.
  intros L Hp N Ze Zd. unfold elim_div. destruct (Z.eqb_spec (hd 0 d) 0) as [E|E]; [exact Zd|]. destruct (_ =? 0); [exact Zd|]. destruct (match ld with None => true | Some l => _ end); [|apply zeros_divz; lia].
  destruct (elim_div_kept eq pos d L Hp N E) as (_ & _ & _ & _ & K & _). specialize (K (1 + c)%nat ltac:(lia) Ze). destruct (seq_elim (tl d) eq (1 + pos) (hd 0 d)) as [e m]. intros _. apply K. apply Zd. exact E.
Qed.
Lemma elim_div_own eq pos kd ld k d : length d = S (length eq) -> (1 + pos < length eq)%nat -> nth (1 + pos) eq 0 <> 0 -> divz pos (elim_div eq pos kd ld k d).
Proof.
  intros L Hp N. unfold elim_div. destruct (Z.eqb_spec (hd 0 d) 0) as [E|E]; [intros F; lia|]. destruct (Z.eqb_spec (nth (2 + pos) d 0) 0) as [Z0|Z0]; [intros _; exact Z0|]. destruct (match ld with None => true | Some l => _ end); [|apply zeros_divz; lia].
  destruct (elim_div_kept eq pos d L Hp N E) as (_ & _ & _ & K & _). destruct (seq_elim (tl d) eq (1 + pos) (hd 0 d)) as [e m]. intros _. exact K.
Qed.
Lemma elim_divs_Forall (P Q : list Z -> Prop) eq pos kd ld : (forall k d, P d -> Q (elim_div eq pos kd ld k d)) -> forall l k, Forall P l -> Forall Q (elim_divs eq pos kd ld k l).
Proof. intros H. induction l as [|d l IH]; intros k F; cbn [elim_divs]; [constructor|]. inversion F; subst. constructor; auto. Qed.
Lemma eliminate_clear c b pos eq skip kd : wf b -> length eq = (1 + total b)%nat -> (pos < total b)%nat -> nth (1 + pos) eq 0 <> 0 -> zrow c eq -> clear c b -> clear c (eliminate_var_using_equality b pos eq skip kd).
Proof.
  intros (We & Wi & Wd) L Hp N Ze [Zi Zd]. split; cbn [eliminate_var_using_equality b_ineq b_div set_div set_ineq].
  - rewrite Forall_map. revert Zi. apply Forall_impl. intros r. apply elim_row_z. exact Ze.
  - apply (elim_divs_Forall (fun d => length d = (2 + total b)%nat /\ divz c d)); [intros k d [L1 Z1]; apply elim_div_z; auto; lia|]. apply Forall_forall. intros d Hd. split; [apply (proj1 (Forall_forall _ _) Wd d Hd)|apply (proj1 (Forall_forall _ _) Zd d Hd)].
Qed.
Lemma eliminate_own b pos eq skip kd : wf b -> length eq = (1 + total b)%nat -> (pos < total b)%nat -> nth (1 + pos) eq 0 <> 0 -> clear pos (eliminate_var_using_equality b pos eq skip kd).
Proof.
  intros (We & Wi & Wd) L Hp N. split; cbn [eliminate_var_using_equality b_ineq b_div set_div set_ineq].
  - rewrite Forall_map. revert Wi. apply Forall_impl. intros r Lr. apply (elim_row_ok eq pos r); [lia|lia|exact N].
  - apply (elim_divs_Forall (fun d => length d = (2 + total b)%nat)); [intros k d L1; apply elim_div_own; auto; lia|exact Wd].
Qed.
Lemma set_div_from_clear c b div eq : clear c b -> (c = nvar b + div)%nat \/ zrow c (nth eq (b_eq b) []) -> clear c (fst (set_div_from_eq b div eq)).
Proof.
  intros [Zi Zd] H. unfold set_div_from_eq. destruct (negb _); [split; assumption|]. destruct (eq_involves_unknown_divs _ _ _); [split; assumption|]. cbn [fst]. split; [exact Zi|]. cbn [b_div set_div].
  apply Forall_forall. intros d Hd. destruct (In_nth _ _ [] Hd) as (i & Hi & <-). rewrite lset_length in Hi. destruct (Nat.lt_ge_cases div (length (b_div b))) as [J|J].
  - rewrite nth_lset by exact J. destruct (Nat.eqb i div); [|apply (proj1 (Forall_forall _ _) Zd); apply nth_In; exact Hi]. intros _. change (2 + c)%nat with (S (1 + c)). cbn [nth]. rewrite nth_zupd. destruct H as [->|H].
    + replace (1 + (nvar b + div))%nat with (1 + nvar b + div)%nat by lia. rewrite Nat.eqb_refl. cbn [andb]. destruct (Nat.ltb_spec (1 + nvar b + div) (length (seq_neg (nth eq (b_eq b) [])))) as [Q|Q]; [reflexivity|]. apply nth_overflow. exact Q.
    + destruct (_ && _); [reflexivity|]. rewrite nth_seq_neg. unfold zrow in H. lia.
  - rewrite lset_out by exact J. apply (proj1 (Forall_forall _ _) Zd). apply nth_In. exact Hi.
Qed.
Lemma gauss_step_clear b done k v ps : wf b -> ordered b -> pivoted (b_eq b) ps (S v) -> length ps = done -> (v < total b)%nat ->
  (done <= k < length (b_eq b))%nat -> nth (1 + v) (nth k (b_eq b) []) 0 <> 0 ->
  (forall c, clear c b -> zrow c (nth k (b_eq b) []) -> clear c (fst (gauss_step b done k v))) /\ clear v (fst (gauss_step b done k v)).
Proof.
  intros W O P Ld Hv Hk N. pose proof W as (We & Wi & Wd). unfold gauss_step.
  assert (E1 : (if Nat.eqb k done then b else set_eq b (lswap (b_eq b) k done)) = set_eq b (lswap (b_eq b) k done)).
  { destruct (Nat.eqb_spec k done) as [e|]; [|reflexivity]. rewrite e. unfold lswap. rewrite !lset_self. destruct b; reflexivity. }
  rewrite E1. cbn [b_eq set_eq]. clear E1. set (r := nth done (lswap (b_eq b) k done) []).
  assert (Er : r = nth k (b_eq b) []) by (unfold r; rewrite nth_lswap by lia; rewrite Nat.eqb_refl; reflexivity).
  set (s := if nth (1 + v) r 0 <? 0 then seq_neg r else r).
  match goal with |- context [if nth (1 + v) r 0 <? 0 then ?X else ?Y] => assert (E2 : (if nth (1 + v) r 0 <? 0 then X else Y) = set_eq b (lset (lswap (b_eq b) k done) done s)) end.
  { unfold s. destruct (_ <? 0); [reflexivity|]. unfold r. rewrite lset_self. reflexivity. }
  rewrite E2. clear E2. set (b2 := set_eq b (lset (lswap (b_eq b) k done) done s)).
  assert (L2 : nth done (b_eq b2) [] = s) by (cbn [b2 b_eq set_eq]; rewrite nth_lset by (rewrite lswap_length; lia); rewrite Nat.eqb_refl; reflexivity).
  rewrite L2. assert (Zs : forall c, nth c (nth k (b_eq b) []) 0 = 0 <-> nth c s 0 = 0).
  { intros c. rewrite <- Er. unfold s. destruct (nth (1 + v) r 0 <? 0); [rewrite nth_seq_neg; lia|tauto]. }
  assert (Ls : length s = (1 + total b2)%nat). { assert (Lr : length r = (1 + total b)%nat) by (rewrite Er; apply rows_nth; [exact We|lia]). unfold s. destruct (nth (1 + v) r 0 <? 0); [unfold seq_neg; rewrite map_length|]; exact Lr. }
  assert (Hp : Permutation (lswap (b_eq b) k done) (b_eq b)) by (apply lswap_perm; lia).
  assert (W2 : wf b2).
  { unfold wf. change (total b2) with (total b). cbn [b2 b_eq b_ineq b_div set_eq]. split; [|split; assumption]. unfold rows_of. rewrite Forall_lset by (rewrite lswap_length; lia). split; [exact Ls|].
    apply (Forall_at _ (lswap (b_eq b) k done) [] done); [rewrite lswap_length; lia|]. apply (Forall_perm _ _ _ Hp). exact We. }
  assert (Ns : nth (1 + v) s 0 <> 0) by (rewrite <- Zs; exact N).
  set (b3 := eliminate_var_using_equality b2 v s (Some done) true). assert (L3 : nth done (b_eq b3) [] = s).
  { unfold b3, eliminate_var_using_equality. cbn [b_eq set_eq set_ineq set_div]. rewrite nth_elim_eqs by (cbn [b2 b_eq set_eq]; rewrite lset_length, lswap_length; lia). cbn [plus]. rewrite Nat.eqb_refl. exact L2. }
  assert (F : forall c, clear c b3 -> c = v \/ zrow c s -> clear c (fst (if Nat.leb (nvar b3) v then let '(b4, p') := set_div_from_eq b3 (v - nvar b3) done in (b4, elim_progress b2 v (Some done) || p') else (b3, elim_progress b2 v (Some done))))).
  { intros c C3 Hc. destruct (Nat.leb_spec (nvar b3) v) as [J|J]; [|exact C3]. pose proof (set_div_from_clear c b3 (v - nvar b3) done C3) as SD. rewrite L3 in SD. destruct (set_div_from_eq b3 (v - nvar b3) done) as [b4 p4]. cbn [fst] in *. apply SD. destruct Hc as [->|Hc]; [left; lia|right; exact Hc]. }
  split.
  - intros c Cc Zc. assert (Zc' : zrow c s) by (apply Zs; exact Zc). apply F; [|right; exact Zc']. apply eliminate_clear; auto.
  - apply F; [|left; reflexivity]. apply eliminate_own; auto.
Qed.
Lemma gauss_loop_clear : forall fuel b p done lv ps, wf b -> ordered b -> pivoted (b_eq b) ps lv -> length ps = done -> (lv <= total b)%nat -> 
  (length (b_eq b) - done + lv < fuel)%nat -> (forall i, (i < length ps)%nat -> clear (nth i ps O - 1) b) ->
  exists b' p' ps', gauss_loop fuel b p done lv = Ok (b', p', length ps') /\ (forall i, (i < length ps')%nat -> clear (nth i ps' O - 1) b') /\
    (pivoted (b_eq b') ps' 0 \/ (length ps' = length (b_eq b') /\ exists l, pivoted (b_eq b') ps' l)).
Proof.
  induction fuel as [|fuel IH]; intros b p done lv ps W O P Ld Hlv F C; [lia|]. cbn [gauss_loop].
  destruct (Nat.leb_spec (length (b_eq b)) done) as [D|D].
  - exists b, p, ps. rewrite Ld. split; [reflexivity|]. split; [intros i Hi; apply C; lia|]. right. split; [|exists lv; exact P]. pose proof (proj1 P). lia.
  - destruct lv as [|v].
    + exists b, p, ps. rewrite Ld. split; [reflexivity|]. split; [intros i Hi; apply C; lia|]. left. exact P.
    + pose proof (find_eq_ok b done (1 + v)) as FE. destruct (find_eq b done (1 + v)) as [k|].
      * destruct FE as [Hk N]. pose proof (gauss_step_ok b done k v ps W O P Ld ltac:(lia) Hk N) as GS. destruct (gauss_step_clear b done k v ps W O P Ld ltac:(lia) Hk N) as [GC GO]. destruct (gauss_step b done k v) as [b1 p1]. cbn [fst] in *.
        destruct GS as (S1 & L1 & L1' & P1). pose proof S1 as (Sh1 & W1 & O1 & _).
        apply (IH b1 (p || p1) (S done) (S v) (ps ++ [S v]) W1 O1 P1); [rewrite app_length; cbn; lia|rewrite (proj2 (shape_nvar _ _ Sh1)); exact Hlv|lia|].
        intros i Hi. rewrite app_length in Hi. cbn [length] in Hi. destruct (Nat.eq_dec i (length ps)) as [->|Hne].
        -- rewrite app_nth2, Nat.sub_diag by lia. cbn [nth]. rewrite Nat.sub_succ, Nat.sub_0_r. exact GO.
        -- rewrite app_nth1 by lia. apply GC; [apply C; lia|]. destruct P as (_ & _ & P3 & _). destruct (P3 i ltac:(lia)) as (A & _ & _ & _ & E). unfold zrow. replace (1 + (nth i ps 0%nat - 1))%nat with (nth i ps 0%nat) by lia. apply E; lia.
      * apply (IH b p done v ps); auto; try lia. destruct P as (P1 & P2 & P3 & P4). split; [exact P1|]. split; [exact P2|]. split.
        -- intros i Hi. destruct (P3 i Hi) as (A & A' & B & C' & E). split; [exact A|]. split; [lia|]. split; [exact B|]. split; [exact C'|exact E].
        -- intros j c Hj Hc. destruct (Nat.eq_dec c (1 + v)) as [->|]; [apply FE; lia|]. apply P4; lia.
Qed.
Definition reduced (b : bmap) (ps : list nat) : Prop := echelon (b_eq b) ps /\ forall i, (i < length ps)%nat -> clear (nth i ps O - 1) b.
Lemma gauss_ordered_clear b b' p : wf b -> ordered b -> gauss_ordered b = Ok (b', p) -> b_empty b' = false -> exists ps, reduced b' ps.
Proof.
  intros W O. unfold gauss_ordered.
  destruct (gauss_loop_clear (S (length (b_eq b) + total b)) b false 0 (total b) [] W O) as (b1 & p1 & ps & -> & C & R); try (cbn; lia).
  { split; [cbn; lia|]. split; [cbn; intros; lia|]. split; [cbn; intros; lia|]. intros j c Hj Hc. apply nth_overflow. rewrite (rows_nth (1 + total b) (b_eq b)); [lia|apply W|lia]. }
  assert (exists l, pivoted (b_eq b1) ps l) as [l P] by (destruct R as [P|[_ P]]; [exists 0%nat; exact P|exact P]). pose proof P as (P1 & _). apply pivoted_echelon in P.
  destruct (Nat.eqb_spec (length ps) (length (b_eq b1))) as [E|E].
  - intros [= <- <-] _. exists ps. rewrite E, firstn_all in P. split; assumption.
  - destruct (existsb _ _); intros [= <- <-] Em; [rewrite set_to_empty_flag in Em; discriminate|]. exists ps. unfold reduced, free_equality. replace (length (b_eq b1) - (length (b_eq b1) - length ps))%nat with (length ps) by lia. split; [exact P|exact C].
Qed.
Lemma gauss_clear b b' p : good b -> gauss b = Ok (b', p) -> b_empty b' = false -> exists ps, reduced b' ps.
Proof.
  intros G E Em. unfold gauss in E. destruct (order_divs b) as [b1| | |] eqn:EO; try discriminate. destruct (order_divs_pres b b1 G EO) as ((_ & (W1 & _) & _) & O1 & _). apply (gauss_ordered_clear b1 b' p W1 O1 E Em).
Qed.
