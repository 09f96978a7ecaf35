(** Proofs about isl_mat_left_hermite and the functions based on it. *)
From Coq Require Import ZArith List Bool Lia Arith ZifyBool.
From Verif Require Import SeqModel SeqSpec SeqProofs MatModel MatTheory.
Import ListNotations.
Open Scope Z_scope.

Definition wf (nr nc : nat) (M : mat) : Prop := length M = nr /\ forall r, (r < nr)%nat -> length (mrow M r) = nc.

Lemma nth_map_seq {A} (f : nat -> A) n k d : (k < n)%nat -> nth k (map f (seq 0 n)) d = f k.
Proof.
  intros H. rewrite (nth_indep _ d (f O)) by (rewrite map_length, seq_length; exact H).
  rewrite (map_nth f). rewrite seq_nth by exact H. reflexivity.
Qed.
Lemma mrow_tab nr nc f r : (r < nr)%nat -> mrow (tab nr nc f) r = map (f r) (seq 0 nc).
Proof. intros H. unfold mrow, tab. apply (nth_map_seq (fun r => map (fun c => f r c) (seq 0 nc)) nr r []). exact H. Qed.
Lemma get_tab nr nc f r c : (r < nr)%nat -> (c < nc)%nat -> get (tab nr nc f) r c = f r c.
Proof.
  intros Hr Hc. change (nth c (mrow (tab nr nc f) r) 0 = f r c). rewrite mrow_tab by exact Hr.
  apply (nth_map_seq (f r)). exact Hc.
Qed.
Lemma wf_tab nr nc f : wf nr nc (tab nr nc f).
Proof.
  split; [unfold tab; rewrite map_length, seq_length; reflexivity|].
  intros r Hr. rewrite mrow_tab by exact Hr. rewrite map_length, seq_length. reflexivity.
Qed.
Lemma get_identity n i j : (i < n)%nat -> (j < n)%nat -> get (mat_identity n) i j = Id i j.
Proof. intros. unfold mat_identity, mat_diag. rewrite get_tab by assumption. reflexivity. Qed.

(** products commute with column operations *)
Lemma mmul_colcomb n A U a b i j r c : mmul n A (colcomb a b i j U) r c = colcomb a b i j (mmul n A U) r c.
Proof.
  unfold mmul, colcomb. destruct (Nat.eqb c j); [|reflexivity].
  rewrite (sumn_ext n _ (fun k => a * (A r k * U k j) + b * (A r k * U k i))) by (intros; ring).
  rewrite sumn_add, !sumn_mul. reflexivity.
Qed.
Lemma mmul_colscale n A U a j r c : mmul n A (colscale a j U) r c = colscale a j (mmul n A U) r c.
Proof.
  unfold mmul, colscale. destruct (Nat.eqb c j); [|reflexivity]. rewrite <- sumn_mul. apply sumn_ext. intros. ring.
Qed.

Section Hermite.
Variables (nr nc : nat) (M0 : nat -> nat -> Z).

Record core (s : hst) (P : nat -> nat -> Z) (sc : Z) : Prop := {
  c_wf : wf nr nc (hM s);
  c_M : forall r c, (r < nr)%nat -> (c < nc)%nat -> get (hM s) r c = mmul nc M0 (get (hU s)) r c;
  c_inv : invp nc (get (hU s)) P sc }.
Definition Qok (s : hst) (P : nat -> nat -> Z) : Prop :=
  forall i j, (i < nc)%nat -> (j < nc)%nat -> get (hQ s) i j = P i j.
(** the columns [i] and [j] are zero in the rows that are skipped *)
Definition zr (s : hst) (row i : nat) : Prop := forall r, (r < row)%nat -> get (hM s) r i = 0.

Ltac ites := repeat match goal with |- context [Nat.eqb ?a ?b] => destruct (Nat.eqb_spec a b); subst end.

Lemma exchange_core s P sc row i j : core s P sc -> zr s row i -> zr s row j -> (i < nc)%nat -> (j < nc)%nat ->
  let s' := exchange nr nc s row i j in
  exists P', core s' P' sc /\ (Qok s P -> Qok s' P') /\
    forall r c, (r < nr)%nat -> (c < nc)%nat -> get (hM s') r c = get (hM s) r (swp i j c).
Proof.
  intros [W HM HI] Zi Zj Hi Hj s'.
  assert (E : forall r c, (r < nr)%nat -> (c < nc)%nat -> get (hM s') r c = get (hM s) r (swp i j c)).
  { intros r c Hr Hc. unfold s', exchange. cbn [hM]. rewrite get_tab by assumption. unfold swp.
    destruct (Nat.ltb_spec r row) as [L|L].
    - destruct (Nat.eqb_spec c i); subst; [rewrite Zi, Zj by exact L; reflexivity|].
      destruct (Nat.eqb_spec c j); subst; [rewrite Zi, Zj by exact L; reflexivity|reflexivity].
    - destruct (Nat.eqb c i); [reflexivity|]. destruct (Nat.eqb c j); reflexivity. }
  assert (EU : forall r c, (r < nc)%nat -> (c < nc)%nat -> get (hU s') r c = get (hU s) r (swp i j c)).
  { intros r c Hr Hc. unfold s', exchange, mat_swap_cols. cbn [hU]. rewrite get_tab by assumption. unfold swp.
    destruct (Nat.eqb c i); [reflexivity|]. destruct (Nat.eqb c j); reflexivity. }
  exists (fun r c => P (swp i j r) c). split; [|split; [|exact E]].
  - split.
    + apply wf_tab.
    + intros r c Hr Hc. rewrite E, HM by (try apply swp_lt; assumption).
      change (mmul nc M0 (fun r c => get (hU s) r (swp i j c)) r c = mmul nc M0 (get (hU s')) r c). apply mmul_ext; [reflexivity|].
      intros k Hk. rewrite EU by assumption. reflexivity.
    + apply (invp_ext nc (fun r c => get (hU s) r (swp i j c)) (fun r c => P (swp i j r) c)); [|reflexivity|apply invp_swp; assumption].
      intros. symmetry. apply EU; assumption.
  - intros Q r c Hr Hc. unfold s', exchange, mat_swap_rows. cbn [hQ]. rewrite get_tab by assumption.
    rewrite <- Q by (try apply swp_lt; assumption). unfold swp.
    destruct (Nat.eqb r i); [reflexivity|]. destruct (Nat.eqb r j); reflexivity.
Qed.

Lemma subtract_core s P sc row i j m : core s P sc -> zr s row i -> (i < nc)%nat -> (j < nc)%nat -> i <> j ->
  let s' := subtract nr nc s row i j m in
  exists P', core s' P' sc /\ (Qok s P -> Qok s' P') /\
    forall r c, (r < nr)%nat -> (c < nc)%nat ->
      get (hM s') r c = if Nat.eqb c j then get (hM s) r j - m * get (hM s) r i else get (hM s) r c.
Proof.
  intros [W HM HI] Zi Hi Hj Hij s'.
  assert (E : forall r c, (r < nr)%nat -> (c < nc)%nat ->
      get (hM s') r c = if Nat.eqb c j then get (hM s) r j - m * get (hM s) r i else get (hM s) r c).
  { intros r c Hr Hc. unfold s', subtract. cbn [hM]. rewrite get_tab by assumption.
    destruct (Nat.ltb_spec r row) as [L|L]; [|reflexivity].
    destruct (Nat.eqb_spec c j); subst; [|reflexivity]. rewrite (Zi r L). ring. }
  assert (EU : forall r c, (r < nc)%nat -> (c < nc)%nat -> get (hU s') r c = colcomb 1 (- m) i j (get (hU s)) r c).
  { intros r c Hr Hc. unfold s', subtract. cbn [hU]. rewrite get_tab by assumption. unfold colcomb.
    destruct (Nat.eqb c j); ring. }
  exists (rowadj 1 (- m) i j P). split; [|split; [|exact E]].
  - split.
    + apply wf_tab.
    + intros r c Hr Hc. rewrite E by assumption.
      rewrite (mmul_ext nc M0 M0 (get (hU s')) (colcomb 1 (- m) i j (get (hU s)))) by (intros; auto).
      rewrite mmul_colcomb. unfold colcomb. rewrite <- !HM by assumption. destruct (Nat.eqb c j); ring.
    + replace sc with (1 * sc) by ring.
      apply (invp_ext nc (colcomb 1 (- m) i j (get (hU s))) (rowadj 1 (- m) i j P)); [|reflexivity|apply invp_comb; assumption].
      intros. symmetry. apply EU; assumption.
  - intros Q r c Hr Hc. unfold s', subtract. cbn [hQ]. rewrite get_tab by assumption.
    unfold rowadj. rewrite !Q by assumption. destruct (Nat.eqb_spec r i) as [->|].
    + destruct (Nat.eqb_spec i j); [contradiction|ring].
    + destruct (Nat.eqb_spec r j) as [->|]; ring.
Qed.

Lemma oppose_core s P sc row j : core s P sc -> zr s row j -> (j < nc)%nat ->
  let s' := oppose nr nc s row j in
  exists P', core s' P' sc /\ (Qok s P -> Qok s' P') /\
    forall r c, (r < nr)%nat -> (c < nc)%nat ->
      get (hM s') r c = if Nat.eqb c j then - get (hM s) r j else get (hM s) r c.
Proof.
  intros [W HM HI] Zj Hj s'.
  assert (E : forall r c, (r < nr)%nat -> (c < nc)%nat ->
      get (hM s') r c = if Nat.eqb c j then - get (hM s) r j else get (hM s) r c).
  { intros r c Hr Hc. unfold s', oppose. cbn [hM]. rewrite get_tab by assumption.
    destruct (Nat.ltb_spec r row) as [L|L]; [|reflexivity].
    destruct (Nat.eqb_spec c j); subst; [|reflexivity]. rewrite (Zj r L). ring. }
  assert (EU : forall r c, (r < nc)%nat -> (c < nc)%nat -> get (hU s') r c = colscale (-1) j (get (hU s)) r c).
  { intros r c Hr Hc. unfold s', oppose. cbn [hU]. rewrite get_tab by assumption. unfold colscale.
    destruct (Nat.eqb c j); ring. }
  exists (rowscale (-1) j P). split; [|split; [|exact E]].
  - split.
    + apply wf_tab.
    + intros r c Hr Hc. rewrite E by assumption.
      rewrite (mmul_ext nc M0 M0 (get (hU s')) (colscale (-1) j (get (hU s)))) by (intros; auto).
      rewrite mmul_colscale. unfold colscale. rewrite <- !HM by assumption. destruct (Nat.eqb c j); ring.
    + apply (invp_ext nc (colscale (-1) j (get (hU s))) (rowscale (-1) j P)); [|reflexivity|apply invp_opp; assumption].
      intros. symmetry. apply EU; assumption.
  - intros Q r c Hr Hc. unfold s', oppose. cbn [hQ]. rewrite get_tab by assumption.
    unfold rowscale. rewrite !Q by assumption. destruct (Nat.eqb_spec r j) as [->|]; ring.
Qed.

(** rows above [row] and columns before [col] are left alone *)
Definition keep (row col : nat) (s s' : hst) : Prop :=
  forall r c, (r < nr)%nat -> (c < nc)%nat -> (r < row)%nat \/ (c < col)%nat -> get (hM s') r c = get (hM s) r c.
Definition zeros (row col : nat) (s : hst) : Prop :=
  forall r c, (r < row)%nat -> (col <= c < nc)%nat -> get (hM s) r c = 0.
Lemma keep_trans row col s1 s2 s3 : keep row col s1 s2 -> keep row col s2 s3 -> keep row col s1 s3.
Proof. intros A B r c Hr Hc H. rewrite B, A by assumption. reflexivity. Qed.
Lemma keep_refl row col s : keep row col s s. Proof. intros r c _ _ _. reflexivity. Qed.
Lemma keep_zeros row col s s' : (row <= nr)%nat -> keep row col s s' -> zeros row col s -> zeros row col s'.
Proof. intros Hr K Z r c Hr' Hc. rewrite K by lia. apply Z; assumption. Qed.
Lemma zeros_zr row col s i : zeros row col s -> (col <= i < nc)%nat -> zr s row i.
Proof. intros Z Hi r Hr. apply Z; assumption. Qed.

Lemma exch_keep row col s i j : (row < nr)%nat -> zeros row col s -> (col <= i < nc)%nat -> (col <= j < nc)%nat ->
  (forall r c, (r < nr)%nat -> (c < nc)%nat -> get (hM (exchange nr nc s row i j)) r c = get (hM s) r (swp i j c)) ->
  keep row col s (exchange nr nc s row i j).
Proof.
  intros Hrow Z Hi Hj E r c Hr Hc H. rewrite E by assumption. unfold swp.
  destruct (Nat.eqb_spec c i); subst; [|destruct (Nat.eqb_spec c j); subst; [|reflexivity]].
  - destruct H; [|lia]. rewrite !Z by assumption. reflexivity.
  - destruct H; [|lia]. rewrite !Z by assumption. reflexivity.
Qed.

Lemma fdiv_q_mod a b : 0 < b -> a - fdiv_q a b * b = a mod b.
Proof. intros H. unfold fdiv_q. rewrite Z.mod_eq by lia. ring. Qed.

Lemma euclid_ok row col : (row < nr)%nat -> (col < nc)%nat -> forall fuel s P sc first,
  core s P sc -> zeros row col s -> 0 < get (hM s) row col -> (col < first <= nc)%nat ->
  (forall c, (col < c < first)%nat -> get (hM s) row c = 0) ->
  (Z.to_nat (get (hM s) row col) + (nc - first) < fuel)%nat ->
  exists s' P', euclid_cols fuel nr nc s row col first = Some s' /\ core s' P' sc /\ (Qok s P -> Qok s' P') /\
    keep row col s s' /\ 0 < get (hM s') row col /\
    forall c, (col < c < nc)%nat -> get (hM s') row c = 0.
Proof.
  intros Hrow Hcol. induction fuel as [|fuel IH]; intros s P sc first Hc Z Hp Hf Hz Hfuel; [lia|].
  cbn [euclid_cols].
  pose proof (first_non_zero_ok (skipn first (mrow (hM s) row))) as F.
  destruct (seq_first_non_zero (skipn first (mrow (hM s) row))) as [off|].
  2:{ exists s, P. split; [reflexivity|]. split; [exact Hc|]. split; [auto|]. split; [apply keep_refl|]. split; [exact Hp|].
      intros c Hcc. destruct (Nat.lt_ge_cases c first); [apply Hz; lia|].
      specialize (F (c - first)%nat). rewrite nth_skipn in F. replace (first + (c - first))%nat with c in F by lia. exact F. }
  destruct F as (F1 & F2 & F3). rewrite skipn_length, (proj2 (c_wf _ _ _ Hc) row Hrow) in F1. rewrite nth_skipn in F2.
  set (f' := (first + off)%nat) in *.
  assert (Hf' : (col < f' < nc)%nat) by lia.
  assert (Hz' : forall c, (col < c < f')%nat -> get (hM s) row c = 0).
  { intros c Hcc. destruct (Nat.lt_ge_cases c first); [apply Hz; lia|].
    specialize (F3 (c - first)%nat ltac:(lia)). rewrite nth_skipn in F3. replace (first + (c - first))%nat with c in F3 by lia. exact F3. }
  set (q := fdiv_q (get (hM s) row f') (get (hM s) row col)).
  destruct (subtract_core s P sc row col f' q Hc (zeros_zr row col s col Z ltac:(lia)) Hcol ltac:(lia) ltac:(lia)) as (P1 & C1 & Q1 & E1).
  set (s1 := subtract nr nc s row col f' q) in *.
  assert (Hpiv : get (hM s1) row col = get (hM s) row col).
  { rewrite E1 by lia. destruct (Nat.eqb_spec col f'); [lia|reflexivity]. }
  assert (Hrem : get (hM s1) row f' = get (hM s) row f' mod get (hM s) row col).
  { rewrite E1 by lia. rewrite Nat.eqb_refl. apply fdiv_q_mod. exact Hp. }
  assert (K1 : keep row col s s1).
  { intros r c Hr Hcc H. rewrite E1 by assumption. destruct (Nat.eqb_spec c f'); [|reflexivity]. subst c.
    destruct H; [|lia]. rewrite !Z by lia. ring. }
  assert (Z1 : zeros row col s1) by (apply (keep_zeros row col s); auto; lia).
  assert (Hz1 : forall c, (col < c < f')%nat -> get (hM s1) row c = 0).
  { intros c Hcc. rewrite E1 by lia. destruct (Nat.eqb_spec c f'); [lia|]. apply Hz'. exact Hcc. }
  pose proof (Z.mod_pos_bound (get (hM s) row f') (get (hM s) row col) Hp) as Hb.
  destruct (Z.eqb_spec (get (hM s1) row f') 0) as [E0|E0]; cbn [negb].
  - destruct (IH s1 P1 sc (S f') C1 Z1 ltac:(lia) ltac:(lia)) as (s' & P' & A1 & A2 & A3 & A4 & A5 & A6).
    + intros c Hcc. destruct (Nat.eq_dec c f') as [->|]; [exact E0|]. apply Hz1. lia.
    + lia.
    + exists s', P'. split; [exact A1|]. split; [exact A2|]. split; [auto|]. split; [eapply keep_trans; eassumption|]. split; assumption.
  - destruct (exchange_core s1 P1 sc row f' col C1 (zeros_zr row col s1 f' Z1 ltac:(lia)) (zeros_zr row col s1 col Z1 ltac:(lia)) ltac:(lia) Hcol)
      as (P2 & C2 & Q2 & E2).
    set (s2 := exchange nr nc s1 row f' col) in *.
    assert (K2 : keep row col s1 s2) by (apply exch_keep; auto; lia).
    assert (Hpiv2 : get (hM s2) row col = get (hM s1) row f').
    { rewrite E2 by lia. unfold swp. destruct (Nat.eqb_spec col f'); [lia|]. rewrite Nat.eqb_refl. reflexivity. }
    destruct (IH s2 P2 sc f' C2) as (s' & P' & A1 & A2 & A3 & A4 & A5 & A6).
    + apply (keep_zeros row col s1); auto; lia.
    + lia.
    + lia.
    + intros c Hcc. rewrite E2 by lia. unfold swp. destruct (Nat.eqb_spec c f'); [lia|]. destruct (Nat.eqb_spec c col); [lia|].
      apply Hz1. exact Hcc.
    + lia.
    + exists s', P'. split; [exact A1|]. split; [exact A2|]. split; [auto|].
      split; [eapply keep_trans; [exact K1|]; eapply keep_trans; eassumption|]. split; assumption.
Qed.

Lemma pivot_row_ok row col s P sc : (row < nr)%nat -> core s P sc -> zeros row col s ->
  match pivot_row nr nc s row col with
  | None => False
  | Some None => forall c, (col <= c < nc)%nat -> get (hM s) row c = 0
  | Some (Some s') => (col < nc)%nat /\ exists P', core s' P' sc /\ (Qok s P -> Qok s' P') /\ keep row col s s' /\
      0 < get (hM s') row col /\ forall c, (col < c < nc)%nat -> get (hM s') row c = 0
  end.
Proof.
  intros Hrow Hc Z. unfold pivot_row.
  pose proof (abs_min_ok (skipn col (mrow (hM s) row))) as F.
  destruct (seq_abs_min_non_zero (skipn col (mrow (hM s) row))) as [k|].
  2:{ intros c Hcc. specialize (F (c - col)%nat). rewrite nth_skipn in F. replace (col + (c - col))%nat with c in F by lia. exact F. }
  destruct F as (F1 & F2 & _). rewrite skipn_length, (proj2 (c_wf _ _ _ Hc) row Hrow) in F1. rewrite nth_skipn in F2.
  set (f := (k + col)%nat). assert (Hf : (col <= f < nc)%nat) by (unfold f; lia).
  assert (Hfz : get (hM s) row f <> 0) by (unfold f; rewrite Nat.add_comm; exact F2). 
  set (s1 := if negb (Nat.eqb f col) then exchange nr nc s row f col else s).
  assert (S1 : exists P1, core s1 P1 sc /\ (Qok s P -> Qok s1 P1) /\ keep row col s s1 /\ get (hM s1) row col <> 0).
  { unfold s1. destruct (Nat.eqb_spec f col) as [E|E]; cbn [negb].
    - exists P. split; [exact Hc|]. split; [auto|]. split; [apply keep_refl|]. rewrite <- E. exact Hfz.
    - destruct (exchange_core s P sc row f col Hc (zeros_zr row col s f Z ltac:(lia)) (zeros_zr row col s col Z ltac:(lia)) ltac:(lia) ltac:(lia))
        as (P2 & C2 & Q2 & E2).
      exists P2. split; [exact C2|]. split; [exact Q2|]. split; [apply exch_keep; auto; lia|].
      rewrite E2 by lia. unfold swp. destruct (Nat.eqb_spec col f); [lia|]. rewrite Nat.eqb_refl. exact Hfz. }
  destruct S1 as (P1 & C1 & Q1 & K1 & N1).
  assert (Z1 : zeros row col s1) by (apply (keep_zeros row col s); auto; lia).
  set (s2 := if get (hM s1) row col <? 0 then oppose nr nc s1 row col else s1).
  assert (S2 : exists P2, core s2 P2 sc /\ (Qok s1 P1 -> Qok s2 P2) /\ keep row col s1 s2 /\ 0 < get (hM s2) row col).
  { unfold s2. destruct (Z.ltb_spec (get (hM s1) row col) 0) as [E|E].
    - destruct (oppose_core s1 P1 sc row col C1 (zeros_zr row col s1 col Z1 ltac:(lia)) ltac:(lia)) as (P2 & C2 & Q2 & E2).
      exists P2. split; [exact C2|]. split; [exact Q2|]. split.
      + intros r c Hr Hcc H. rewrite E2 by assumption. destruct (Nat.eqb_spec c col); [|reflexivity]. subst c.
        destruct H; [|lia]. rewrite !Z1 by lia. reflexivity.
      + rewrite E2 by lia. rewrite Nat.eqb_refl. lia.
    - exists P1. split; [exact C1|]. split; [auto|]. split; [apply keep_refl|]. lia. }
  destruct S2 as (P2 & C2 & Q2 & K2 & N2).
  assert (Z2 : zeros row col s2) by (apply (keep_zeros row col s1); auto; lia).
  destruct (euclid_ok row col Hrow ltac:(lia) (euclid_fuel nc (get (hM s2) row col)) s2 P2 sc (S col) C2 Z2 N2 ltac:(lia))
    as (s' & P' & A1 & A2 & A3 & A4 & A5 & A6).
  - intros c Hcc. lia.
  - unfold euclid_fuel. lia.
  - rewrite A1. split; [lia|]. exists P'. split; [exact A2|]. split; [auto|].
    split; [eapply keep_trans; [exact K1|]; eapply keep_trans; eassumption|]. split; assumption.
Qed.

(** the off-pivot elements *)
Definition reduced (neg : bool) (p x : Z) : Prop := if neg then - p < x <= 0 else 0 <= x < p.
Lemma reduce_ok neg row col s P sc i : (row < nr)%nat -> (i < col < nc)%nat -> core s P sc -> zeros row col s ->
  0 < get (hM s) row col ->
  let s' := reduce_col nr nc neg row col s i in
  exists P', core s' P' sc /\ (Qok s P -> Qok s' P') /\ reduced neg (get (hM s) row col) (get (hM s') row i) /\
    forall r c, (r < nr)%nat -> (c < nc)%nat -> (r < row)%nat \/ c <> i -> get (hM s') r c = get (hM s) r c.
Proof.
  intros Hrow Hi Hc Z Hp. unfold reduce_col.
  destruct (Z.eqb_spec (get (hM s) row i) 0) as [E|E].
  { exists P. split; [exact Hc|]. split; [auto|]. split; [|auto]. rewrite E. destruct neg; cbn; lia. }
  set (q := if neg then cdiv_q (get (hM s) row i) (get (hM s) row col) else fdiv_q (get (hM s) row i) (get (hM s) row col)).
  assert (R : reduced neg (get (hM s) row col) (get (hM s) row i - q * get (hM s) row col)).
  { unfold q, reduced. destruct neg.
    - unfold cdiv_q. pose proof (Z.div_mod (- get (hM s) row i) (get (hM s) row col) ltac:(lia)).
      pose proof (Z.mod_pos_bound (- get (hM s) row i) (get (hM s) row col) Hp). lia.
    - rewrite fdiv_q_mod by exact Hp. apply Z.mod_pos_bound. exact Hp. }
  destruct (Z.eqb_spec q 0) as [E0|E0].
  { exists P. split; [exact Hc|]. split; [auto|]. split; [|auto]. rewrite E0 in R. replace (get (hM s) row i) with (get (hM s) row i - 0 * get (hM s) row col) by ring. exact R. }
  destruct (subtract_core s P sc row col i q Hc (zeros_zr row col s col Z ltac:(lia)) ltac:(lia) ltac:(lia) ltac:(lia)) as (P1 & C1 & Q1 & E1).
  exists P1. split; [exact C1|]. split; [exact Q1|]. split.
  - rewrite E1 by lia. rewrite Nat.eqb_refl. exact R.
  - intros r c Hr Hcc H. rewrite E1 by assumption. destruct (Nat.eqb_spec c i); [|reflexivity]. subst c.
    destruct H as [H|H]; [|congruence]. rewrite (Z r col) by lia. ring.
Qed.
Lemma reduce_all neg row col : (row < nr)%nat -> (col < nc)%nat -> forall n s P sc, (n <= col)%nat -> core s P sc -> zeros row col s ->
  0 < get (hM s) row col ->
  let s' := fold_left (reduce_col nr nc neg row col) (seq 0 n) s in
  exists P', core s' P' sc /\ (Qok s P -> Qok s' P') /\ 
    (forall i, (i < n)%nat -> reduced neg (get (hM s) row col) (get (hM s') row i)) /\
    forall r c, (r < nr)%nat -> (c < nc)%nat -> (r < row)%nat \/ (n <= c)%nat -> get (hM s') r c = get (hM s) r c.
Proof.
  intros Hrow Hcol. induction n as [|n IH]; intros s P sc Hn Hc Z Hp.
  { exists P. cbn. split; [exact Hc|]. split; [auto|]. split; [lia|]. auto. }
  rewrite seq_S, fold_left_app. cbn [plus fold_left].
  destruct (IH s P sc ltac:(lia) Hc Z Hp) as (P1 & C1 & Q1 & R1 & K1).
  set (s1 := fold_left (reduce_col nr nc neg row col) (seq 0 n) s) in *.
  assert (Epiv : get (hM s1) row col = get (hM s) row col) by (apply K1; lia).
  assert (Z1 : zeros row col s1). { intros r c Hr Hcc. rewrite K1 by lia. apply Z; assumption. }
  destruct (reduce_ok neg row col s1 P1 sc n Hrow ltac:(lia) C1 Z1 ltac:(lia)) as (P2 & C2 & Q2 & R2 & K2).
  exists P2. split; [exact C2|]. split; [auto|]. split.
  - intros i Hi. destruct (Nat.eq_dec i n) as [->|]; [rewrite <- Epiv; exact R2|].
    rewrite K2 by lia. apply R1. lia.
  - intros r c Hr Hcc H. rewrite K2 by lia. apply K1; lia.
Qed.

(** the shape of the part that has been handled *)
Definition shape (neg : bool) (s : hst) (row : nat) (ps : list nat) : Prop :=
  (length ps <= nc)%nat /\
  (forall c, (c < length ps)%nat -> (nth c ps O < row)%nat) /\
  (forall c d, (c < d < length ps)%nat -> (nth c ps O < nth d ps O)%nat) /\
  (forall c, (c < length ps)%nat ->
     0 < get (hM s) (nth c ps O) c /\
     (forall r, (r < nth c ps O)%nat -> get (hM s) r c = 0) /\
     (forall i, (i < c)%nat -> reduced neg (get (hM s) (nth c ps O) c) (get (hM s) (nth c ps O) i))).

Lemma hermite_loop_ok neg : forall n row s P ps, (row + n = nr)%nat -> core s P 1 -> Qok s P ->
  zeros row (length ps) s -> shape neg s row ps ->
  exists s' P' ps', hermite_loop nr nc neg (seq row n) s (length ps) = Some s' /\ core s' P' 1 /\ Qok s' P' /\
    zeros nr (length ps') s' /\ shape neg s' nr ps'.
Proof.
  induction n as [|n IH]; intros row s P ps Hn Hc Q Z S0.
  { cbn. exists s, P, ps. assert (row = nr) by lia. subst row. auto. }
  cbn [seq hermite_loop]. pose proof (pivot_row_ok row (length ps) s P 1 ltac:(lia) Hc Z) as F.
  destruct (pivot_row nr nc s row (length ps)) as [[s1|]|]; [| |contradiction].
  2:{ apply (IH (S row) s P ps); auto; try lia.
      - intros r c Hr Hcc. destruct (Nat.eq_dec r row) as [->|]; [apply F; exact Hcc|apply Z; lia].
      - destruct S0 as (A & B & C & D). split; [exact A|]. split; [|auto]. intros c' Hc'. specialize (B c' Hc'). lia. }
  destruct F as (Hlt & P1 & C1 & Q1 & K1 & N1 & Z1).
  set (col := length ps) in *.
  assert (Z1' : zeros row col s1) by (apply (keep_zeros row col s); auto; lia).
  destruct (reduce_all neg row col ltac:(lia) Hlt col s1 P1 1 (Nat.le_refl _) C1 Z1' N1) as (P2 & C2 & Q2 & R2 & K2).
  set (s2 := fold_left (reduce_col nr nc neg row col) (seq 0 col) s1) in *.
  assert (K : forall r c, (r < row)%nat -> (c < nc)%nat -> get (hM s2) r c = get (hM s) r c).
  { intros r c Hr Hcc. rewrite K2 by lia. apply K1; lia. }
  assert (Epiv : get (hM s2) row col = get (hM s1) row col) by (apply K2; lia).
  assert (EL : S col = length (ps ++ [row])) by (rewrite app_length; cbn; fold col; lia).
  rewrite EL. apply (IH (S row) s2 P2 (ps ++ [row])); auto; try lia.
  - rewrite <- EL. intros r c Hr Hcc. destruct (Nat.eq_dec r row) as [->|]; [rewrite K2 by lia; apply Z1; lia|].
    rewrite K by lia. apply Z; lia.
  - destruct S0 as (A & B & C & D). unfold shape. rewrite <- EL.
    assert (NT : forall c, (c < S col)%nat -> nth c (ps ++ [row]) O = if Nat.eqb c col then row else nth c ps O).
    { intros c Hcc. destruct (Nat.eqb_spec c col) as [->|]; [apply nth_middle|apply app_nth1; unfold col in *; lia]. }
    split; [lia|]. split; [|split].
    + intros c Hcc. rewrite NT by exact Hcc. destruct (Nat.eqb_spec c col); [lia|]. specialize (B c ltac:(unfold col in *; lia)). lia.
    + intros c d Hcd. rewrite !NT by lia. destruct (Nat.eqb_spec c col), (Nat.eqb_spec d col); try lia.
      * apply B. unfold col in *; lia.
      * apply C. unfold col in *; lia.
    + intros c Hcc. rewrite NT by exact Hcc. destruct (Nat.eqb_spec c col) as [->|Hne].
      * split; [lia|]. split; [intros r Hr; rewrite K by lia; apply Z; lia|]. rewrite Epiv. exact R2.
      * destruct (D c ltac:(unfold col in *; lia)) as (D1 & D2 & D3). pose proof (B c ltac:(unfold col in *; lia)) as Br.
        rewrite K by lia. split; [exact D1|]. split; [intros r Hr; rewrite K by lia; apply D2; exact Hr|].
        intros i Hi. rewrite K by lia. apply D3. exact Hi.
Qed.
End Hermite.
