(** Proofs for the loop of isl_basic_map_gauss. *)
From Coq Require Import ZArith List Bool Lia Arith Permutation.
From Verif Require Import SeqModel SeqSpec SeqProofs MatModel BMapModel BMapSpec BMapSem BMapLists BMapNorm BMapGauss.
Import ListNotations.
Open Scope Z_scope.

(** the first rows have been used, with leading columns [ps]; the others have
    zeros beyond column [lv] *)
Definition pivoted (l : list (list Z)) (ps : list nat) (lv : nat) : Prop :=
  (length ps <= length l)%nat /\
  (forall i j, (i < j < length ps)%nat -> (nth j ps O < nth i ps O)%nat) /\
  (forall i, (i < length ps)%nat -> (0 < nth i ps O)%nat /\ (lv <= nth i ps O)%nat /\ 0 < nth (nth i ps O) (nth i l []) 0 /\
     (forall c, (nth i ps O < c)%nat -> nth c (nth i l []) 0 = 0) /\
     (forall j, (j < length l)%nat -> j <> i -> nth (nth i ps O) (nth j l []) 0 = 0)) /\
  (forall j c, (length ps <= j < length l)%nat -> (lv < c)%nat -> nth c (nth j l []) 0 = 0).

Lemma find_eq_from_ok c : forall l k,
  match find_eq_from c k l with
  | Some j => exists i, j = (k + i)%nat /\ (i < length l)%nat /\ nth c (nth i l []) 0 <> 0
  | None => forall i, (i < length l)%nat -> nth c (nth i l []) 0 = 0
  end.
Proof.
  induction l as [|r l IH]; intros k; cbn [find_eq_from]; [intros i H; cbn in H; lia|].
  destruct (Z.eqb_spec (nth c r 0) 0) as [E|E]; cbn [negb].
  - specialize (IH (S k)). destruct (find_eq_from c (S k) l) as [j|].
    + destruct IH as (i & -> & Hi & N). exists (S i). split; [lia|]. split; [cbn; lia|exact N].
    + intros [|i] H; [exact E|]. apply IH. cbn in H. lia.
  - exists O. split; [lia|]. split; [cbn; lia|exact E].
Qed.
Lemma find_eq_ok b done c :
  match find_eq b done c with
  | Some k => (done <= k < length (b_eq b))%nat /\ nth c (nth k (b_eq b) []) 0 <> 0
  | None => forall j, (done <= j < length (b_eq b))%nat -> nth c (nth j (b_eq b) []) 0 = 0
  end.
Proof.
  unfold find_eq. pose proof (find_eq_from_ok c (skipn done (b_eq b)) done) as H. destruct (find_eq_from c done (skipn done (b_eq b))) as [j|].
  - destruct H as (i & -> & Hi & N). rewrite nth_skipn in N. rewrite skipn_length in Hi. split; [lia|exact N].
  - intros j Hj. specialize (H (j - done)%nat). rewrite skipn_length, nth_skipn in H. replace (done + (j - done))%nat with j in H by lia. apply H. lia.
Qed.

Lemma nth_repl (l : list (list Z)) k t s j : (k < length l)%nat -> (t < length l)%nat ->
  nth j (lset (lswap l k t) t s) [] = if Nat.eqb j t then s else if Nat.eqb j k then nth t l [] else nth j l [].
Proof.
  intros Hk Ht. rewrite nth_lset by (rewrite lswap_length; exact Ht). destruct (Nat.eqb_spec j t) as [|Hj]; [reflexivity|].
  rewrite nth_lswap by assumption. destruct (Nat.eqb_spec j t); [contradiction|]. reflexivity.
Qed.
(** moving the row to the front of the remaining ones and changing its sign *)
Lemma pivoted_move l ps lv k s : pivoted l ps lv -> (length ps <= k < length l)%nat ->
  (forall c, nth c (nth k l []) 0 = 0 -> nth c s 0 = 0) -> pivoted (lset (lswap l k (length ps)) (length ps) s) ps lv.
Proof.
  intros (P1 & P2 & P3 & P4) Hk Hs. set (t := length ps). 
  assert (NR := fun j => nth_repl l k t s j ltac:(lia) ltac:(unfold t; lia)).
  unfold pivoted. rewrite lset_length, lswap_length. split; [exact P1|]. split; [exact P2|]. split.
  - intros i Hi. destruct (P3 i Hi) as (A & A' & B & C & D). rewrite NR. destruct (Nat.eqb_spec i t); [unfold t in *; lia|]. destruct (Nat.eqb_spec i k); [unfold t in *; lia|].
    repeat split; auto. intros j Hj Hne. rewrite NR. destruct (Nat.eqb_spec j t); [apply Hs; apply D; unfold t in *; lia|]. destruct (Nat.eqb_spec j k); [apply D; unfold t in *; lia|]. apply D; assumption.
  - intros j c Hj Hc. rewrite NR. destruct (Nat.eqb_spec j t); [apply Hs, P4; lia|]. destruct (Nat.eqb_spec j k); apply P4; unfold t in *; lia.
Qed.

(** eliminating the variable from the other rows *)
Lemma pivoted_elim n l ps v : pivoted l ps (S v) -> rows_of n l -> (1 + v < n)%nat -> (length ps < length l)%nat ->
  0 < nth (1 + v) (nth (length ps) l []) 0 ->
  pivoted (elim_eqs (nth (length ps) l []) v (Some (length ps)) 0 l) (ps ++ [S v]) (S v).
Proof.
  intros (P1 & P2 & P3 & P4) R Hv Ht Pos. set (t := length ps) in *. set (q := nth t l []) in *. change (1 + v)%nat with (S v) in *.
  assert (Lq : length q = n) by (apply rows_nth; assumption).
  assert (Zq : forall c, (S v < c)%nat -> nth c q 0 = 0) by (intros c Hc; apply P4; unfold t in *; lia).
  assert (NE : forall j, (j < length l)%nat -> j <> t -> let r' := nth j (elim_eqs q v (Some t) 0 l) [] in
     nth (S v) r' 0 = 0 /\ exists g a b, 0 < g /\ 0 < a /\ forall i, g * nth i r' 0 = a * nth i (nth j l []) 0 + b * nth i q 0).
  { intros j Hj Hne. cbn zeta. rewrite nth_elim_eqs by exact Hj. cbn [plus]. destruct (Nat.eqb_spec t j); [lia|].
    destruct (elim_row_ok q v (nth j l []) ltac:(rewrite (rows_nth n l j) by assumption; lia) ltac:(lia) ltac:(change (1 + v)%nat with (S v); lia)) as (_ & A & B). split; assumption. }
  assert (NT : nth t (elim_eqs q v (Some t) 0 l) [] = q) by (rewrite nth_elim_eqs by exact Ht; cbn [plus]; rewrite Nat.eqb_refl; reflexivity).
  assert (ZZ : forall j c, (j < length l)%nat -> j <> t -> nth c (nth j l []) 0 = 0 -> nth c q 0 = 0 -> nth c (nth j (elim_eqs q v (Some t) 0 l) []) 0 = 0).
  { intros j c Hj Hne A B. destruct (NE j Hj Hne) as (_ & g & a & b & Hg & Ha & H). specialize (H c). rewrite A, B in H. assert (H' : g * nth c (nth j (elim_eqs q v (Some t) 0 l) []) 0 = 0) by lia. apply Z.mul_eq_0 in H'. lia. }
  assert (PSV : forall i, (i < t)%nat -> (S v < nth i ps O)%nat).
  { intros i Hi. destruct (P3 i Hi) as (_ & A & _ & _ & D). destruct (Nat.eq_dec (nth i ps O) (S v)) as [E|]; [|lia]. exfalso.
    specialize (D t Ht ltac:(lia)). rewrite E in D. fold q in D. lia. }
  unfold pivoted. rewrite elim_eqs_length, app_length. cbn [length]. fold t. split; [lia|]. split; [|split].
  - intros i j Hij. destruct (Nat.eq_dec j t) as [->|].
    + rewrite app_nth2 by (unfold t; lia). replace (t - length ps)%nat with O by (unfold t; lia). cbn [nth]. rewrite app_nth1 by (unfold t in *; lia). apply PSV. lia.
    + rewrite !app_nth1 by (unfold t in *; lia). apply P2. unfold t in *. lia.
  - intros i Hi. destruct (Nat.eq_dec i t) as [->|Hne].
    + rewrite app_nth2 by (unfold t; lia). replace (t - length ps)%nat with O by (unfold t; lia). cbn [nth]. rewrite NT. split; [lia|]. split; [lia|]. split; [exact Pos|]. split; [exact Zq|].
      intros j Hj Hne. apply NE; assumption.
    + rewrite app_nth1 by (unfold t in *; lia). destruct (P3 i ltac:(unfold t in *; lia)) as (A & A' & B & C & D). split; [exact A|]. split; [exact A'|]. pose proof (PSV i ltac:(lia)) as SV.
      split; [|split].
      * destruct (NE i ltac:(lia) Hne) as (_ & g & a & b & Hg & Ha & H). specialize (H (nth i ps O)). rewrite (Zq _ SV) in H. nia.
      * intros c Hc. apply ZZ; [lia|exact Hne|apply C; exact Hc|apply Zq; lia].
      * intros j Hj Hji. destruct (Nat.eq_dec j t) as [->|Hjt]; [rewrite NT; apply D; lia|]. apply ZZ; [exact Hj|exact Hjt|apply D; assumption|]. apply Zq. exact SV.
  - intros j c Hj Hc. apply ZZ; [lia|unfold t in *; lia|apply P4; unfold t in *; lia|apply Zq; exact Hc].
Qed.

(** the relation between a basic map and what it is turned into *)
Definition shape (b b' : bmap) : Prop :=
  b_param b' = b_param b /\ b_in b' = b_in b /\ b_out b' = b_out b /\ ndiv b' = ndiv b /\ b_rat b' = b_rat b /\ b_empty b' = b_empty b.
Lemma shape_refl b : shape b b. Proof. repeat split. Qed.
Lemma shape_trans a b c : shape a b -> shape b c -> shape a c.
Proof. unfold shape. intros (A1 & A2 & A3 & A4 & A5 & A6) (B1 & B2 & B3 & B4 & B5 & B6). repeat split; congruence. Qed.
Lemma shape_nvar b b' : shape b b' -> nvar b' = nvar b /\ total b' = total b.
Proof. unfold shape, total, nvar. intros (-> & -> & -> & -> & _). split; reflexivity. Qed.

Definition steps (b b' : bmap) : Prop :=
  shape b b' /\ wf b' /\ ordered b' /\ (denoms (b_div b) -> denoms (b_div b')) /\
  (forall v, system (b_eq b) (b_ineq b) v <-> system (b_eq b') (b_ineq b') v) /\
  (forall v, hd 0 v = 1 -> length v = (1 + total b)%nat -> system (b_eq b) (b_ineq b) v -> divisions (b_div b) (1 + nvar b) v -> divisions (b_div b') (1 + nvar b) v).
Lemma steps_refl b : wf b -> ordered b -> steps b b.
Proof. intros W O. split; [apply shape_refl|]. split; [exact W|]. split; [exact O|]. split; [auto|]. split; [intros; reflexivity|auto]. Qed.
Lemma steps_trans a b c : steps a b -> steps b c -> steps a c.
Proof.
  intros (A1 & A2 & A3 & A4 & A5 & A6) (B1 & B2 & B3 & B4 & B5 & B6). split; [eapply shape_trans; eassumption|]. split; [exact B2|]. split; [exact B3|]. split; [auto|]. destruct (shape_nvar _ _ A1) as [EV ET]. split.
  - intros v. rewrite (A5 v). apply B5.
  - intros v Hv Lv Sv Dv. rewrite <- EV. apply B6; [exact Hv|lia|apply A5; exact Sv|]. rewrite EV. apply A6; assumption.
Qed.

Lemma dot_seq_neg r v : dot (seq_neg r) v = - dot r v.
Proof. apply dot_opp. Qed.
Lemma nth_seq_neg r c : nth c (seq_neg r) 0 = - nth c r 0.
Proof. unfold seq_neg. change 0 with (- 0) at 1. apply map_nth. Qed.

Lemma nth_zupd l : forall i a j, nth j (zupd l i a) 0 = if (Nat.eqb j i && Nat.ltb i (length l))%bool then a else nth j l 0.
Proof.
  induction l as [|x l IH]; intros [|i] a [|j]; cbn [zupd nth length]; try reflexivity.
  - destruct (Nat.eqb_spec (S j) (S i)); [|reflexivity]. cbn. reflexivity.
  - rewrite IH. change (Nat.eqb (S j) (S i)) with (Nat.eqb j i). change (Nat.ltb (S i) (S (length l))) with (Nat.ltb i (length l)). reflexivity.
Qed.

Lemma gauss_step_ok b done k v ps : wf b -> ordered b -> pivoted (b_eq b) ps (S v) -> length ps = done -> (v < total b)%nat ->
  (done <= k < length (b_eq b))%nat -> nth (1 + v) (nth k (b_eq b) []) 0 <> 0 ->
  let b' := fst (gauss_step b done k v) in
  steps b b' /\ length (b_eq b') = length (b_eq b) /\ length (b_ineq b') = length (b_ineq b) /\ pivoted (b_eq b') (ps ++ [S v]) (S v).
Proof.
  intros W O P Ld Hv Hk N. pose proof W as (We & Wi & Wd). cbn zeta. unfold gauss_step.
  assert (E1 : (if Nat.eqb k done then b else set_eq b (lswap (b_eq b) k done)) = set_eq b (lswap (b_eq b) k done)).
  { destruct (Nat.eqb_spec k done) as [e|]; [|reflexivity]. rewrite e. unfold lswap. rewrite !lset_self. destruct b; reflexivity. }
  rewrite E1. cbn [b_eq set_eq]. clear E1.
  set (r := nth done (lswap (b_eq b) k done) []).
  assert (Er : r = nth k (b_eq b) []) by (unfold r; rewrite nth_lswap by lia; rewrite Nat.eqb_refl; reflexivity).
  set (s := if nth (1 + v) r 0 <? 0 then seq_neg r else r).
  match goal with |- context [if nth (1 + v) r 0 <? 0 then ?X else ?Y] => assert (E2 : (if nth (1 + v) r 0 <? 0 then X else Y) = set_eq b (lset (lswap (b_eq b) k done) done s)) end.
  { unfold s. destruct (_ <? 0); [reflexivity|]. unfold r. rewrite lset_self. reflexivity. }
  rewrite E2. clear E2. set (b2 := set_eq b (lset (lswap (b_eq b) k done) done s)).
  assert (L2 : nth done (b_eq b2) [] = s) by (cbn [b2 b_eq set_eq]; rewrite nth_lset by (rewrite lswap_length; lia); rewrite Nat.eqb_refl; reflexivity).
  cbn [b_eq set_eq]. fold b2. rewrite L2. 
  assert (Es : (nth (1 + v) r 0 < 0 /\ s = seq_neg r) \/ (0 <= nth (1 + v) r 0 /\ s = r)).
  { unfold s. destruct (Z.ltb_spec (nth (1 + v) r 0) 0); [left|right]; split; auto. }
  rewrite Er in Es. clearbody s.
  assert (Lr : length (nth k (b_eq b) []) = (1 + total b)%nat) by (apply rows_nth; [exact We|lia]).
  assert (Ls : length s = (1 + total b)%nat) by (destruct Es as [[_ ->]|[_ ->]]; unfold seq_neg; rewrite ?map_length; exact Lr).
  assert (Ds : forall w, zero_on w s <-> zero_on w (nth k (b_eq b) [])).
  { intros w. unfold zero_on. destruct Es as [[_ ->]|[_ ->]]; [rewrite dot_seq_neg; lia|tauto]. }
  assert (Zs : forall c, nth c (nth k (b_eq b) []) 0 = 0 -> nth c s 0 = 0).
  { intros c H. destruct Es as [[_ ->]|[_ ->]]; [rewrite nth_seq_neg, H; reflexivity|exact H]. }
  assert (Ps : 0 < nth (1 + v) s 0).
  { destruct Es as [[Es ->]|[Es ->]]; [rewrite nth_seq_neg; lia|lia]. }
  assert (Hp : Permutation (lswap (b_eq b) k done) (b_eq b)) by (apply lswap_perm; lia).
  assert (S2 : steps b b2).
  { split; [repeat split|]. split; [|split; [exact O|]].
    - unfold wf. change (total b2) with (total b). cbn [b2 b_eq b_ineq b_div set_eq]. split; [|split; assumption]. unfold rows_of. rewrite Forall_lset by (rewrite lswap_length; lia). split; [exact Ls|].
      apply (Forall_at _ (lswap (b_eq b) k done) [] done); [rewrite lswap_length; lia|]. apply (Forall_perm _ _ _ Hp). exact We.
    - split; [auto|]. split; [|auto]. intros w. unfold system. cbn [b2 b_eq b_ineq set_eq]. apply and_iff_compat_r. rewrite Forall_lset by (rewrite lswap_length; lia).
      rewrite <- (Forall_perm _ _ _ Hp). rewrite (Forall_at _ (lswap (b_eq b) k done) [] done) by (rewrite lswap_length; lia). fold r. rewrite Er. rewrite Ds. reflexivity. }
  assert (P2 : pivoted (b_eq b2) ps (S v)) by (cbn [b2 b_eq set_eq]; rewrite <- Ld; apply pivoted_move; [exact P|lia|exact Zs]).
  pose proof S2 as (Sh2 & W2 & O2 & Dn2 & Sy2 & Dv2). assert (Len2 : length (b_eq b2) = length (b_eq b)) by (cbn [b2 b_eq set_eq]; rewrite lset_length, lswap_length; reflexivity).
  assert (Z2 : forall c, (1 + v < c)%nat -> nth c s 0 = 0) by (intros c Hc; rewrite <- L2; apply P2; lia).
  change (total b) with (total b2) in Ls, Hv.
  destruct (elim_system b2 v s (Some done) true W2 Ls Hv ltac:(lia)) as (W3 & (Nv3 & Nd3 & Le3 & Li3 & Em3 & Ra3 & Pa3 & In3 & Ou3) & Sy3).
  destruct (elim_divisions b2 v s (Some done) W2 O2 Ls Hv ltac:(lia) Z2) as (O3 & Dn3 & _ & _ & Dv3).
  set (b3 := eliminate_var_using_equality b2 v s (Some done) true) in *.
  assert (IN2 : forall w, system (b_eq b2) (b_ineq b2) w -> dot s w = 0).
  { intros w [A _]. change (zero_on w s). rewrite <- L2. apply (proj1 (Forall_forall _ _) A). apply nth_In. lia. }
  assert (L3 : nth done (b_eq b3) [] = s).
  { unfold b3, eliminate_var_using_equality. cbn [b_eq set_eq set_ineq set_div]. rewrite nth_elim_eqs by lia. cbn [plus]. rewrite Nat.eqb_refl. exact L2. }
  assert (IN3 : forall w, system (b_eq b3) (b_ineq b3) w -> dot s w = 0).
  { intros w [A _]. change (zero_on w s). rewrite <- L3. apply (proj1 (Forall_forall _ _) A). apply nth_In. lia. }
  assert (Sh3 : shape b2 b3) by (repeat split; assumption).
  assert (S3 : steps b2 b3).
  { split; [exact Sh3|]. split; [exact W3|]. split; [exact O3|]. split; [exact Dn3|]. split.
    - intros w. split; intros Sw; [apply (Sy3 w (IN2 w Sw)); exact Sw|apply (Sy3 w (IN3 w Sw)); exact Sw].
    - intros w Hw _ Sw Dw. apply (Dv3 w _ Hw (IN2 w Sw)). exact Dw. }
  assert (P3 : pivoted (b_eq b3) (ps ++ [S v]) (S v)).
  { unfold b3, eliminate_var_using_equality. cbn [b_eq set_eq set_ineq set_div]. rewrite <- L2, <- Ld. rewrite <- Ld in L2. 
    apply (pivoted_elim (1 + total b2)); [exact P2|apply W2|lia|lia|]. rewrite L2. exact Ps. }
  assert (S03 : steps b b3) by (eapply steps_trans; eassumption).
  destruct (Nat.leb_spec (nvar b3) v) as [Hvv|Hvv]; cbn [fst].
  2:{ split; [exact S03|]. split; [lia|]. split; [exact Li3|exact P3]. }
  unfold set_div_from_eq. rewrite L3. set (dv := (v - nvar b3)%nat).
  destruct (negb (hd 0 (nth dv (b_div b3) []) =? 0)); [cbn [fst]; split; [exact S03|]; split; [lia|]; split; [exact Li3|exact P3]|].
  destruct (eq_involves_unknown_divs b3 s dv); [cbn [fst]; split; [exact S03|]; split; [lia|]; split; [exact Li3|exact P3]|].
  replace (1 + nvar b3 + dv)%nat with (1 + v)%nat by (unfold dv; lia). cbn [fst].
  set (d4 := nth (1 + v) s 0 :: zupd (seq_neg s) (1 + v) 0). set (b4 := set_div b3 (lset (b_div b3) dv d4)).
  assert (Hdv : (dv < length (b_div b3))%nat). { unfold dv. unfold total, ndiv in *. lia. }
  assert (Sh4 : shape b3 b4) by (repeat split; unfold ndiv; cbn; rewrite lset_length; reflexivity).
  assert (T4 : total b4 = total b2). { rewrite (proj2 (shape_nvar _ _ Sh4)). apply (shape_nvar _ _ Sh3). }
  assert (T3 : total b3 = total b2) by apply (shape_nvar _ _ Sh3).
  assert (S4 : steps b3 b4).
  { split; [exact Sh4|]. split; [|split; [|split; [|split]]].
    - unfold wf. rewrite T4, <- T3. split; [apply W3|]. split; [apply W3|]. cbn [b4 b_div set_div]. unfold rows_of. rewrite Forall_lset by exact Hdv. split.
      + unfold d4. cbn [length]. rewrite zupd_length. unfold seq_neg. rewrite map_length. lia.
      + apply (Forall_at _ (b_div b3) [] dv Hdv). apply W3.
    - intros j c Hj Hc Hh. change (nvar b4) with (nvar b3) in *. cbn [b4 b_div set_div] in Hh |- *. rewrite nth_lset in Hh |- * by exact Hdv. destruct (Nat.eqb_spec j dv) as [->|Hne].
      + unfold d4. replace (2 + nvar b3 + c)%nat with (S (1 + nvar b3 + c)) by lia. cbn [nth]. rewrite nth_zupd. destruct (Nat.eqb_spec (1 + nvar b3 + c) (1 + v)); cbn [andb].
        * destruct (Nat.ltb_spec (1 + v) (length (seq_neg s))); [reflexivity|]. apply nth_overflow. lia.
        * rewrite nth_seq_neg. rewrite Z2; [reflexivity|]. unfold dv in Hc. lia.
      + apply O3; auto. unfold ndiv, b4 in Hj. cbn in Hj. rewrite lset_length in Hj. exact Hj.
    - unfold denoms. cbn [b4 b_div set_div]. intros D. apply Forall_lset; [exact Hdv|]. split; [unfold d4; cbn [hd]; lia|]. apply (Forall_at _ (b_div b3) [] dv Hdv). exact D.
    - intros w. reflexivity.
    - intros w Hw Lw Sw Dw j Hj. cbn [b4 b_div set_div] in *. rewrite lset_length in Hj. rewrite nth_lset by exact Hdv. destruct (Nat.eqb_spec j dv) as [->|]; [|apply Dw; exact Hj].
      right. unfold d4. cbn [hd tl]. assert (Lns : (1 + v < length (seq_neg s))%nat) by (unfold seq_neg; rewrite map_length; lia). rewrite dot_zupd by exact Lns. rewrite dot_seq_neg, nth_seq_neg, (IN3 w Sw).
      replace (1 + nvar b3 + dv)%nat with (1 + v)%nat by (unfold dv; lia). set (c := nth (1 + v) s 0) in *. set (e := nth (1 + v) w 0). replace (- 0 + (0 - - c) * e) with (c * e) by ring. lia. }
  split; [eapply steps_trans; eassumption|]. cbn [b4 b_eq b_ineq set_div]. split; [lia|]. split; [exact Li3|exact P3].
Qed.

Lemma gauss_loop_ok : forall fuel b p done lv ps, wf b -> ordered b -> pivoted (b_eq b) ps lv -> length ps = done -> (lv <= total b)%nat -> 
  (length (b_eq b) - done + lv < fuel)%nat ->
  exists b' p' ps', gauss_loop fuel b p done lv = Ok (b', p', length ps') /\ steps b b' /\ length (b_eq b') = length (b_eq b) /\ length (b_ineq b') = length (b_ineq b) /\
    (pivoted (b_eq b') ps' 0 \/ (length ps' = length (b_eq b') /\ exists l, pivoted (b_eq b') ps' l)).
Proof.
  induction fuel as [|fuel IH]; intros b p done lv ps W O P Ld Hlv F; [lia|]. cbn [gauss_loop].
  destruct (Nat.leb_spec (length (b_eq b)) done) as [D|D].
  - exists b, p, ps. rewrite Ld. split; [reflexivity|]. split; [apply steps_refl; assumption|]. split; [reflexivity|]. split; [reflexivity|]. right. split; [|exists lv; exact P]. pose proof (proj1 P). lia.
  - destruct lv as [|v].
    + exists b, p, ps. rewrite Ld. split; [reflexivity|]. split; [apply steps_refl; assumption|]. split; [reflexivity|]. split; [reflexivity|]. left. exact P.
    + pose proof (find_eq_ok b done (1 + v)) as FE. destruct (find_eq b done (1 + v)) as [k|].
      * destruct FE as [Hk N]. pose proof (gauss_step_ok b done k v ps W O P Ld ltac:(lia) Hk N) as GS. destruct (gauss_step b done k v) as [b1 p1]. cbn [fst] in GS.
        destruct GS as (S1 & L1 & L1' & P1). pose proof S1 as (Sh1 & W1 & O1 & _).
        destruct (IH b1 (p || p1) (S done) (S v) (ps ++ [S v]) W1 O1 P1) as (b' & p' & ps' & E & S' & Le & Li & R).
        -- rewrite app_length. cbn. lia.
        -- rewrite (proj2 (shape_nvar _ _ Sh1)). exact Hlv.
        -- lia.
        -- exists b', p', ps'. split; [exact E|]. split; [eapply steps_trans; eassumption|]. split; [lia|]. split; [lia|exact R].
      * apply (IH b p done v ps); auto; try lia. destruct P as (P1 & P2 & P3 & P4). split; [exact P1|]. split; [exact P2|]. split.
        -- intros i Hi. destruct (P3 i Hi) as (A & A' & B & C & E). split; [exact A|]. split; [lia|]. split; [exact B|]. split; [exact C|exact E].
        -- intros j c Hj Hc. destruct (Nat.eq_dec c (1 + v)) as [->|]; [apply FE; lia|]. apply P4; lia.
Qed.

Lemma pivoted_echelon l ps lv : pivoted l ps lv -> echelon (firstn (length ps) l) ps.
Proof.
  intros (P1 & P2 & P3 & P4). assert (NF : forall i, (i < length ps)%nat -> nth i (firstn (length ps) l) [] = nth i l []).
  { intros i Hi. rewrite <- (firstn_skipn (length ps) l) at 2. symmetry. apply app_nth1. rewrite firstn_length. lia. }
  split; [rewrite firstn_length; lia|]. split; [exact P2|]. intros i Hi. destruct (P3 i Hi) as (A & A' & B & C & E). rewrite NF by exact Hi. split; [exact A|]. split; [exact B|]. split; [exact C|].
  intros j Hj Hne. rewrite NF by exact Hj. apply E; [lia|exact Hne].
Qed.

(** isl_basic_map_gauss on ordered integer divisions *)
Lemma gauss_ordered_ok b : wf b -> ordered b ->
  exists b' p, gauss_ordered b = Ok (b', p) /\
   ((steps b b' /\ exists ps, echelon (b_eq b') ps) \/
    (b_empty b' = true /\ b_param b' = b_param b /\ b_in b' = b_in b /\ b_out b' = b_out b /\ b_rat b' = b_rat b /\ wf b' /\ ordered b' /\ (denoms (b_div b) -> denoms (b_div b')) /\ forall v, 0 < hd 0 v -> ~ system (b_eq b) (b_ineq b) v)).
Proof.
  intros W O. unfold gauss_ordered.
  destruct (gauss_loop_ok (S (length (b_eq b) + total b)) b false 0 (total b) [] W O) as (b1 & p & ps & -> & S1 & Le & Li & R); try (cbn; lia).
  { split; [cbn; lia|]. split; [cbn; intros; lia|]. split; [cbn; intros; lia|]. intros j c Hj Hc. apply nth_overflow. rewrite (rows_nth (1 + total b) (b_eq b)); [lia|apply W|lia]. }
  destruct (Nat.eqb_spec (length ps) (length (b_eq b1))) as [E|E].
  - exists b1, p. split; [reflexivity|]. left. split; [exact S1|]. exists ps. assert (exists l, pivoted (b_eq b1) ps l) as [l P] by (destruct R as [P|[_ P]]; [exists 0%nat; exact P|exact P]).
    apply pivoted_echelon in P. rewrite E, firstn_all in P. exact P.
  - destruct R as [P|[F _]]; [|contradiction]. pose proof P as (P1 & _ & _ & P4). pose proof S1 as (Sh1 & W1 & O1 & Dn1 & Sy1 & Dv1).
    destruct (existsb _ _) eqn:EX.
    + exists (set_to_empty b1), p. split; [reflexivity|]. right. split; [apply set_to_empty_flag|]. destruct Sh1 as (A1 & A2 & A3 & A4 & A5 & A6).
      assert (GE : b_param (set_to_empty b1) = b_param b1 /\ b_in (set_to_empty b1) = b_in b1 /\ b_out (set_to_empty b1) = b_out b1 /\ b_rat (set_to_empty b1) = b_rat b1) by (unfold set_to_empty; destruct (_ && _); repeat split).
      destruct GE as (-> & -> & -> & ->). split; [exact A1|]. split; [exact A2|]. split; [exact A3|]. split; [exact A5|]. split; [apply set_to_empty_wf; exact W1|]. split.
      { unfold set_to_empty. destruct (_ && _); [exact O1|]. intros k j Hk. unfold ndiv in Hk. cbn in Hk. lia. }
      split. { intros D. unfold set_to_empty. destruct (_ && _); [apply Dn1; exact D|constructor]. }
      intros v Hv Sv. apply existsb_exists in EX as (r & Hr & Nr). destruct (In_nth _ r [] Hr) as (i & Hi & Ei). rewrite skipn_length in Hi. rewrite nth_skipn in Ei.
      apply Sy1 in Sv. destruct Sv as [A _]. assert (Zr : zero_on v r). { apply (proj1 (Forall_forall _ _) A). rewrite <- Ei. apply nth_In. lia. }
      unfold zero_on in Zr. rewrite dot_hd_tl in Zr. rewrite (dot_nth0 (tl r)) in Zr.
      * destruct (Z.eqb_spec (hd 0 r) 0); [discriminate|]. nia.
      * intros c. assert (nth (S c) r 0 = 0) by (rewrite <- Ei; apply P4; lia). destruct r; [destruct c; reflexivity|exact H].
    + exists (free_equality b1 (length (b_eq b1) - length ps)), p. split; [reflexivity|]. left. unfold free_equality. replace (length (b_eq b1) - (length (b_eq b1) - length ps))%nat with (length ps) by lia. split.
      * apply (steps_trans b b1); [exact S1|]. split; [repeat split|]. split; [|split; [exact O1|split; [auto|split; [|auto]]]].
        -- unfold wf. cbn [b_eq b_ineq b_div set_eq]. change (total (set_eq b1 _)) with (total b1). destruct W1 as (X1 & X2 & X3). split; [|split; assumption]. unfold rows_of in *. rewrite <- (firstn_skipn (length ps) (b_eq b1)) in X1. apply Forall_app in X1. apply X1.
        -- intros v. unfold system. cbn [b_eq b_ineq set_eq]. apply and_iff_compat_r. rewrite <- (firstn_skipn (length ps) (b_eq b1)) at 1. rewrite Forall_app. split; [tauto|]. intros A. split; [exact A|].
           apply Forall_forall. intros r Hr. destruct (In_nth _ r [] Hr) as (i & Hi & Ei). rewrite skipn_length in Hi. rewrite nth_skipn in Ei. unfold zero_on. rewrite dot_hd_tl, (dot_nth0 (tl r)).
           ++ assert (hd 0 r = 0); [|lia]. destruct (Z.eqb_spec (hd 0 r) 0) as [|NE]; [assumption|exfalso]. assert (existsb (fun r => negb (hd 0 r =? 0)) (skipn (length ps) (b_eq b1)) = true); [|congruence].
              apply existsb_exists. exists r. split; [exact Hr|]. destruct (Z.eqb_spec (hd 0 r) 0); [lia|reflexivity].
           ++ intros c. assert (nth (S c) r 0 = 0) by (rewrite <- Ei; apply P4; lia). destruct r; [destruct c; reflexivity|exact H].
      * exists ps. cbn [b_eq set_eq]. apply (pivoted_echelon _ _ 0). exact P.
Qed.
