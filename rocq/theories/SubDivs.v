(** Adding the integer divisions and the constraints of the second argument. *)
From Coq Require Import ZArith List Bool Arith Lia.
From Verif Require Import SeqSpec SeqModel MatModel SeqProofs BMapLists BMapModel BMapSpec BMapSem BMapGauss2 ReorderModel LocalModel LocalSpec LocalProofs BElimModel BElimSpec BElimProofs BElimVars BElimCols SimpModel SimpSpec SimpBase SimpFinal SetModel SetSpec SetBase SetLift SetOps SetViews SubModel SubSpec SubBase.
Import ListNotations.
Open Scope Z_scope.

Lemma dot_snoc e : forall u r, dot r (u ++ [e]) = dot r u + nth (length u) r 0 * e.
Proof. induction u as [|x u IH]; intros r; destruct r as [|y r]; cbn [app dot length nth]; try lia; [destruct r; cbn; lia|]. rewrite IH. lia. Qed.
Lemma find_div_ok vec ds : (find_div vec ds <= length ds)%nat /\ (rows_of (length vec) ds -> (find_div vec ds < length ds)%nat -> nth (find_div vec ds) ds [] = vec).
Proof.
  induction ds as [|d ds IH]; cbn [find_div length nth]; [split; [lia|intros _ H; lia]|]. destruct (seq_eq d vec) eqn:E.
  - split; [lia|]. intros R _. inversion R as [|? ? R1 R2]. subst. apply seq_eq_ok in E; [exact E|congruence].
  - destruct IH as [I1 I2]. split; [lia|]. intros R H. inversion R as [|? ? R1 R2]. subst. apply I2; [exact R2|lia].
Qed.
Definition bounds (d : list Z) (e : Z) (v : list Z) : Prop := hd 0 d * e <= dot (tl d) v < hd 0 d * e + hd 0 d.
Definition cur (nv : nat) (t : table) (x : list Z) : Prop := exists w, solves (fst t) w /\ firstn (1 + nv) w = x.

Lemma select_snoc nv dm j w : select nv (dm ++ [j]) w = select nv dm w ++ [nth (1 + nv + j) w 0].
Proof. unfold select. rewrite map_app, app_assoc. reflexivity. Qed.
Lemma select_app nv dm u e : (1 + nv <= length u)%nat -> Forall (fun p => (1 + nv + p < length u)%nat) dm -> select nv dm (u ++ [e]) = select nv dm u.
Proof.
  intros L F. unfold select. rewrite firstn_app. replace (1 + nv - length u)%nat with 0%nat by lia. cbn [firstn]. rewrite app_nil_r. f_equal. apply map_ext_in. intros p Hp. rewrite Forall_forall in F. rewrite app_nth1 by (apply F; exact Hp). reflexivity.
Qed.
Section Tab.
Variable emp : nat -> bmap -> bool.
Hypothesis EMP : sound_emptiness emp.
Variables (np ni no : nat).
Let nv := (np + ni + no)%nat.
Lemma sized_nvar b : sized np ni no b -> nvar b = nv.
Proof. intros (A & B & C). unfold nvar, nv. lia. Qed.

Section Divs.
Variables (p : bmap) (s : nat).
Hypothesis PP : proper p.
Hypothesis PZ : sized np ni no p.
Hypothesis PO : ordered p.
Hypothesis PK : LocalSpec.known (b_div p).
Lemma known_hd i : (i < ndiv p)%nat -> 0 < hd 0 (nth i (b_div p) []).
Proof.
  intros H. pose proof (PK i H) as K. destruct PP as (_ & _ & D & _). unfold denoms in D. rewrite Forall_forall in D. specialize (D (nth i (b_div p) []) (nth_In _ _ H)). destruct (nth i (b_div p) []); cbn in *; lia.
Qed.
Definition partly (t : table) (dm : list nat) : Prop :=
  Forall (fun k => (k < ndiv (fst t))%nat) dm /\
  forall w, solves (fst t) w -> forall i, (i < length dm)%nat -> bounds (nth i (b_div p) []) (nth (1 + nv + nth i dm 0%nat) w 0) (select nv dm w).
Lemma table_size t : table_ok np ni no t -> nvar (fst t) = nv /\ total (fst t) = (nv + ndiv (fst t))%nat.
Proof. intros ((_ & Z) & _). rewrite <- (sized_nvar _ Z). split; reflexivity. Qed.
Lemma partly_snoc t dm j : table_ok np ni no t -> (length dm < ndiv p)%nat -> (j < ndiv (fst t))%nat -> partly t dm ->
  (forall w, solves (fst t) w -> bounds (nth (length dm) (b_div p) []) (nth (1 + nv + j) w 0) (select nv dm w)) -> partly t (dm ++ [j]).
Proof.
  intros T HL HJ (F & B) N. destruct (table_size t T) as (V & TT). split; [apply Forall_app; auto|]. intros w Sw i Hi. rewrite app_length in Hi. cbn in Hi. rewrite select_snoc.
  assert (LS : length (select nv dm w) = (1 + nv + length dm)%nat) by (apply select_length; destruct Sw as (-> & _); lia).
  assert (Z0 : forall k, (k <= length dm)%nat -> nth (1 + nv + length dm) (tl (nth k (b_div p) [])) 0 = 0).
  { intros k Hk. assert (KP : (k < ndiv p)%nat) by lia. pose proof (PO k (length dm) KP Hk) as Q. rewrite (sized_nvar _ PZ) in Q. pose proof (known_hd k KP). pose proof (div_len p k ltac:(apply PP) KP) as Lk. destruct (nth k (b_div p) []); [discriminate Lk|]. apply Q. cbn in *. lia. }
  unfold bounds. rewrite dot_snoc, LS. rewrite Z0 by lia. destruct (Nat.eq_dec i (length dm)) as [->|NE].
  - rewrite app_nth2 by lia. rewrite Nat.sub_diag. cbn [nth]. pose proof (N w Sw) as Q. unfold bounds in Q. lia.
  - rewrite app_nth1 by lia. pose proof (B w Sw i ltac:(lia)) as Q. unfold bounds in Q. lia.
Qed.
Lemma add_divs_loop_ok : forall ds dm t, (length dm + length ds)%nat = ndiv p -> ds = skipn (length dm) (b_div p) -> table_ok np ni no t -> partly t dm ->
  table_ok np ni no (fst (tab_add_divs_loop emp s t nv ds dm)) /\ (forall x, cur nv (fst (tab_add_divs_loop emp s t nv ds dm)) x <-> cur nv t x) /\
  length (snd (tab_add_divs_loop emp s t nv ds dm)) = ndiv p /\ partly (fst (tab_add_divs_loop emp s t nv ds dm)) (snd (tab_add_divs_loop emp s t nv ds dm)).
Proof.
  induction ds as [|d ds IH]; intros dm t HL HD T PT; cbn [tab_add_divs_loop fst snd]; [cbn in HL; split; [exact T|]; split; [tauto|]; split; [lia|exact PT]|].
  cbn [length] in HL. assert (HI : (length dm < ndiv p)%nat) by lia. destruct (table_size t T) as (V & TT).
  assert (Ed : d = nth (length dm) (b_div p) []) by (rewrite <- (Nat.add_0_r (length dm)), <- nth_skipn, <- HD; reflexivity).
  assert (Es : ds = skipn (length (dm ++ [0%nat])) (b_div p)). { rewrite app_length. cbn [length]. replace (length dm + 1)%nat with (1 + length dm)%nat by lia. rewrite <- skipn_plus. rewrite <- HD. reflexivity. }
  pose proof (div_len p (length dm) ltac:(apply PP) HI) as Ld. rewrite <- Ed in Ld. pose proof (known_hd _ HI) as D0. rewrite <- Ed in D0. assert (TP : total p = (nv + ndiv p)%nat) by (unfold total; rewrite (sized_nvar _ PZ); reflexivity).
  set (nd := ndiv (fst t)) in *. set (E := expand_constraint (1 + nv + nd) nv (tl d) dm).
  assert (VE : expand_loop (firstn (2 + nv) d ++ repeat 0 nd) (2 + nv) (skipn (2 + nv) d) dm = hd 0 d :: E).
  { destruct d as [|d0 d]; [discriminate Ld|]. unfold E, expand_constraint. replace (1 + nv + nd - (1 + nv))%nat with nd by lia. cbn [hd tl]. change (2 + nv)%nat with (Datatypes.S (1 + nv)). cbn [firstn skipn app]. apply expand_loop_cons. }
  rewrite VE. set (vec := hd 0 d :: E).
  assert (LT : length (tl d) = (1 + (nv + ndiv p))%nat) by (apply tl_len; rewrite Ld; lia).
  assert (LE : length E = (1 + nv + nd)%nat) by (apply expand_length; [rewrite LT; lia|lia]).
  destruct PT as (F & B). assert (F' : Forall (fun k => (1 + nv + k < 1 + nv + nd)%nat) dm) by (eapply Forall_impl; [|exact F]; cbn beta; intros; lia).
  assert (DE : forall w, length w = (1 + nv + nd)%nat -> dot E w = dot (tl d) (select nv dm w)) by (intros w Lw; apply expand_dot; [rewrite LT; lia|lia|lia|exact F']).
  destruct (find_div_ok vec (b_div (fst t))) as (FD1 & FD2). fold (ndiv (fst t)) in FD1, FD2. fold nd in FD1, FD2. set (j := find_div vec (b_div (fst t))) in *.
  destruct (Nat.eqb_spec j nd) as [EJ|NJ].
  - destruct (tab_add_div_ok emp EMP np ni no s t vec T ltac:(cbn [vec length]; rewrite LE, TT; reflexivity) D0) as (T' & TT' & ND' & SV). set (t' := tab_add_div emp s t vec) in *.
    assert (PT' : partly t' dm).
    { split; [eapply Forall_impl; [|exact F]; cbn beta; intros; fold nd in ND'; lia|]. intros w Sw i Hi. apply SV in Sw as (u & e & -> & Su & _). assert (Lu : length u = (1 + nv + nd)%nat) by (destruct Su as (-> & _); lia).
      rewrite select_app by (try lia; rewrite Lu; exact F'). assert (Hp : (nth i dm 0%nat < nd)%nat) by (rewrite Forall_forall in F; apply F; apply nth_In; exact Hi). rewrite app_nth1 by lia. apply B; assumption. }
    assert (PT2 : partly t' (dm ++ [j])).
    { apply partly_snoc; [exact T'|exact HI|rewrite ND'; fold nd; lia|exact PT'|]. intros w Sw. apply SV in Sw as (u & e & -> & Su & BB). assert (Lu : length u = (1 + nv + nd)%nat) by (destruct Su as (-> & _); lia). rewrite select_app by (try lia; rewrite Lu; exact F'). rewrite app_nth2 by lia. replace (1 + nv + j - length u)%nat with 0%nat by lia. cbn [nth]. rewrite <- Ed. unfold bounds. cbn [vec hd tl] in BB. rewrite DE in BB by exact Lu. exact BB. }
    destruct (IH (dm ++ [j]) t') as (R1 & R2 & R3); [rewrite app_length; cbn; lia|rewrite app_length in *; exact Es|exact T'|exact PT2|]. split; [exact R1|]. split; [|exact R3]. intros x. rewrite R2. unfold cur. split.
    + intros (w & Sw & Ex). apply SV in Sw as (u & e & -> & Su & _). exists u. split; [exact Su|]. destruct Su as (Lu & _). rewrite firstn_app in Ex. replace (1 + nv - length u)%nat with 0%nat in Ex by lia. cbn [firstn] in Ex. rewrite app_nil_r in Ex. exact Ex.
    + intros (u & Su & Ex). pose proof Su as (Lu & _). exists (u ++ [dot E u / hd 0 d]). split.
      * apply SV. exists u, (dot E u / hd 0 d). split; [reflexivity|]. split; [exact Su|]. cbn [vec hd tl]. pose proof (Z.div_mod (dot E u) (hd 0 d) ltac:(lia)). pose proof (Z.mod_pos_bound (dot E u) (hd 0 d) D0). lia.
      * rewrite firstn_app. replace (1 + nv - length u)%nat with 0%nat by lia. cbn [firstn]. rewrite app_nil_r. exact Ex.
  - assert (HJ : (j < nd)%nat) by lia. pose proof T as ((PT & _) & _). pose proof PT as (WT & _ & _ & IT & _). assert (EV : nth j (b_div (fst t)) [] = vec). { apply FD2; [|exact HJ]. destruct WT as (_ & _ & Wd). replace (length vec) with (2 + total (fst t))%nat; [exact Wd|]. cbn [vec length]. rewrite LE, TT. reflexivity. }
    assert (PT2 : partly t (dm ++ [j])).
    { apply partly_snoc; [exact T|exact HI|exact HJ|split; assumption|]. intros w Sw. destruct Sw as (Lw & Hw & Sy). pose proof (IT w Lw Hw Sy j HJ) as Q. rewrite EV, V in Q. destruct Q as [Q|Q]; [cbn [vec hd] in Q; lia|]. cbn [vec hd tl] in Q. rewrite DE in Q by lia. rewrite <- Ed. exact Q. }
    destruct (IH (dm ++ [j]) t) as (R1 & R2 & R3); [rewrite app_length; cbn; lia|rewrite app_length in *; exact Es|exact T|exact PT2|]. split; [exact R1|]. split; [exact R2|exact R3].
Qed.
(** the local variables of [p] have been found in the table *)
Definition fits (dm : list nat) (t : table) : Prop := length dm = ndiv p /\ partly t dm.
Lemma add_divs_ok t : table_ok np ni no t ->
  table_ok np ni no (fst (tab_add_divs emp s t p)) /\ (forall x, cur nv (fst (tab_add_divs emp s t p)) x <-> cur nv t x) /\ fits (snd (tab_add_divs emp s t p)) (fst (tab_add_divs emp s t p)).
Proof.
  intros T. unfold tab_add_divs. rewrite (sized_nvar _ PZ). destruct (add_divs_loop_ok (b_div p) [] t) as (A & B & C & D); [reflexivity|reflexivity|exact T|split; [constructor|intros w _ i Hi; cbn in Hi; lia]|]. split; [exact A|]. split; [exact B|]. split; [exact C|exact D].
Qed.
Lemma p_wf_divs : wf_divs nv (b_div p).
Proof.
  intros i Hi. pose proof (div_len p i ltac:(apply PP) Hi) as L. unfold total in L. rewrite (sized_nvar _ PZ) in L. pose proof (known_hd i Hi) as K. split; [unfold ndiv in L; lia|]. split; [destruct (nth i (b_div p) []); cbn in *; lia|]. intros j Hj. pose proof (PO i (j - (2 + nv))%nat Hi ltac:(lia) ltac:(lia)) as Q. rewrite (sized_nvar _ PZ) in Q. replace (2 + nv + (j - (2 + nv)))%nat with j in Q by lia. exact Q.
Qed.
Lemma bounds_sat v : length v = (1 + nv + ndiv p)%nat -> hd 0 v = 1 -> (forall i, (i < ndiv p)%nat -> bounds (nth i (b_div p) []) (nth (1 + nv + i) v 0) v) -> sat nv (b_div p) v.
Proof.
  intros L H B. split; [exact L|]. split; [destruct v; [discriminate H|exact H]|]. intros i Hi _. specialize (B i Hi). pose proof (known_hd i Hi) as K. unfold bounds in B. destruct (nth i (b_div p) []) as [|d0 d]; [cbn in K; lia|]. cbn [hd tl skipn nth] in *. apply (Z.div_unique _ _ _ (dot d v - d0 * nth (1 + nv + i) v 0)); lia.
Qed.
Lemma member_select t dm w : table_ok np ni no t -> fits dm t -> solves (fst t) w ->
  (points p (firstn (1 + nv) w) <-> system (b_eq p) (b_ineq p) (select nv dm w)).
Proof.
  intros T (L & F & B) Sw. destruct (table_size t T) as (V & TT). pose proof Sw as (Lw & Hw & _). assert (LX : length (firstn (1 + nv) w) = (1 + nv)%nat) by (rewrite firstn_length; lia). assert (HX : hd 0 (firstn (1 + nv) w) = 1) by (destruct w; [discriminate Hw|exact Hw]).
  assert (LS : length (select nv dm w) = (1 + nv + ndiv p)%nat) by (rewrite <- L; apply select_length; lia). assert (HS : hd 0 (select nv dm w) = 1) by (destruct w; [discriminate Hw|exact Hw]).
  assert (SA : sat nv (b_div p) (select nv dm w)). { apply bounds_sat; [exact LS|exact HS|]. intros i Hi. rewrite select_nth by lia. apply B; [exact Sw|lia]. }
  assert (FS : firstn (1 + nv) (select nv dm w) = firstn (1 + nv) w) by (unfold select; rewrite firstn_app, firstn_firstn, LX, Nat.min_id, Nat.sub_diag; cbn [firstn]; apply app_nil_r).
  rewrite (points_described p) by (try assumption; rewrite (sized_nvar _ PZ); exact LX). split.
  - intros (e & Le & Se). replace (select nv dm w) with (firstn (1 + nv) w ++ e); [exact Se|]. apply (sat_unique nv (b_div p)); [exact p_wf_divs|exact PK| |exact SA|].
    + apply bounds_sat; [rewrite app_length; lia|destruct (firstn (1 + nv) w); [discriminate LX|exact HX]|]. destruct PP as (_ & _ & _ & I & _). intros i Hi. pose proof (I (firstn (1 + nv) w ++ e)) as Q. rewrite (sized_nvar _ PZ) in Q. destruct (Q ltac:(rewrite app_length; unfold total; rewrite (sized_nvar _ PZ); lia) ltac:(destruct (firstn (1 + nv) w); [discriminate LX|exact HX]) Se i Hi) as [Q0|Q0]; [pose proof (known_hd i Hi); lia|exact Q0].
    + rewrite FS. rewrite firstn_app, firstn_firstn, LX, Nat.min_id, Nat.sub_diag. cbn [firstn]. apply app_nil_r.
  - intros S. exists (skipn (1 + nv) (select nv dm w)). split; [rewrite skipn_length; lia|]. rewrite <- FS. rewrite firstn_skipn. exact S.
Qed.

(** ** the constraints *)
Definition rows : list (list Z) := flat_map (fun r => [r; seq_neg r]) (b_eq p) ++ b_ineq p.
Lemma flat_nth : forall (l : list (list Z)) c, (c < 2 * length l)%nat -> nth c (flat_map (fun r => [r; seq_neg r]) l) [] = if Nat.odd c then seq_neg (nth (c / 2) l []) else nth (c / 2) l [].
Proof.
  induction l as [|r l IH]; intros c Hc; [cbn in Hc; lia|]. destruct c as [|[|c]]; [reflexivity|reflexivity|]. cbn [flat_map app nth length] in *. rewrite IH by lia. change (Datatypes.S (Datatypes.S c)) with (2 + c)%nat. replace ((2 + c) / 2)%nat with (Datatypes.S (c / 2)); [cbn [nth]; reflexivity|]. replace (2 + c)%nat with (c + 1 * 2)%nat by lia. rewrite Nat.div_add by lia. lia.
Qed.
Lemma flat_length (l : list (list Z)) : length (flat_map (fun r => [r; seq_neg r]) l) = (2 * length l)%nat.
Proof. induction l as [|r l IH]; [reflexivity|]. cbn [flat_map length app]. rewrite IH. lia. Qed.
Lemma rows_nth_row c : (c < length rows)%nat -> constraint_row p c false = nth c rows [].
Proof.
  intros H. unfold constraint_row, rows. cbv beta iota zeta. destruct (Nat.ltb_spec c (2 * length (b_eq p))) as [Q|Q].
  - rewrite app_nth1 by (rewrite flat_length; exact Q). rewrite flat_nth by exact Q. destruct (Nat.odd c); reflexivity.
  - rewrite app_nth2 by (rewrite flat_length; exact Q). rewrite flat_length. reflexivity.
Qed.
Lemma rows_len : Forall (fun r : list Z => length r = (1 + total p)%nat) rows.
Proof.
  destruct PP as ((We & Wi & _) & _). unfold rows, rows_of in *. apply Forall_app. split; [|exact Wi]. rewrite Forall_forall in *. intros r Hr. apply in_flat_map in Hr as (x & Hx & [<-|[<-|[]]]); [apply We; exact Hx|rewrite neg_len; apply We; exact Hx].
Qed.
Lemma rows_system u : system (b_eq p) (b_ineq p) u <-> Forall (nonneg_on u) rows.
Proof.
  unfold system, rows. rewrite Forall_app. assert (Q : Forall (zero_on u) (b_eq p) <-> Forall (nonneg_on u) (flat_map (fun r => [r; seq_neg r]) (b_eq p))); [|rewrite Q; tauto]. induction (b_eq p) as [|r l IH]; [split; constructor|]. cbn [flat_map app]. rewrite !Forall_cons_iff, <- IH. unfold zero_on, nonneg_on. rewrite dot_seq_neg. split; [intros [A B]; repeat split; auto; lia|intros (A & B & C); split; [lia|exact C]].
Qed.
Lemma oppose_length c : (c < length rows)%nat -> length (constraint_row p c true) = (1 + total p)%nat.
Proof.
  intros H. pose proof rows_len as R. rewrite Forall_forall in R. specialize (R (nth c rows []) (nth_In _ _ H)). rewrite <- rows_nth_row in R by exact H. rewrite <- R. unfold constraint_row. cbv beta iota zeta. destruct (Nat.ltb _ _); rewrite zupd_length; [destruct (Nat.odd c); cbn [Bool.eqb]; rewrite ?neg_len; reflexivity|rewrite neg_len; reflexivity].
Qed.
Lemma oppose_dot c u : (c < length rows)%nat -> hd 0 u = 1 -> dot (constraint_row p c true) u = - 1 - dot (constraint_row p c false) u.
Proof.
  intros H Hu. pose proof (oppose_length c H) as L. assert (HU : nth 0 u 0 = 1) by (destruct u; [discriminate Hu|exact Hu]). unfold constraint_row in *. cbv beta iota zeta in *. destruct (Nat.ltb _ _).
  - destruct (Nat.odd c); cbn [Bool.eqb] in *; rewrite zupd_length in L; rewrite dot_zupd by lia; rewrite HU, ?dot_seq_neg; lia.
  - rewrite zupd_length in L. rewrite dot_zupd by lia. rewrite HU, dot_seq_neg. lia.
Qed.
Section Rows.
Variable dm : list nat.
Definition adds (t : table) (rs : list (list Z)) : table := fold_left (tab_add_ineq emp s) rs t.
Lemma adds_ok : forall rs t, table_ok np ni no t -> Forall (fun r : list Z => length r = (1 + total (fst t))%nat) rs ->
  table_ok np ni no (adds t rs) /\ total (fst (adds t rs)) = total (fst t) /\ b_eq (fst (adds t rs)) = b_eq (fst t) /\ b_ineq (fst (adds t rs)) = b_ineq (fst t) ++ rs /\ forall v, solves (fst (adds t rs)) v <-> solves (fst t) v /\ Forall (nonneg_on v) rs.
Proof.
  induction rs as [|r rs IH]; intros t T F; cbn [adds fold_left]; [split; [exact T|]; split; [reflexivity|]; split; [reflexivity|]; split; [symmetry; apply app_nil_r|]; intros v; split; [auto|tauto]|].
  inversion F as [|? ? F1 F2]. subst. destruct (tab_add_ineq_ok emp EMP np ni no s t r T F1) as (T1 & TT & _ & SV). destruct (IH (tab_add_ineq emp s t r) T1) as (A & B & B' & C & D); [rewrite TT; exact F2|]. fold (adds (tab_add_ineq emp s t r) rs). split; [exact A|]. split; [congruence|]. split; [rewrite B'; reflexivity|]. split; [rewrite C; cbn [tab_add_ineq fst add_ineq set_ineq b_ineq]; rewrite <- app_assoc; reflexivity|]. intros v. rewrite D, SV, Forall_cons_iff. tauto.
Qed.
Lemma adds_total : forall rs t, total (fst (adds t rs)) = total (fst t).
Proof. induction rs as [|r rs IH]; intros t; [reflexivity|]. cbn [adds fold_left]. etransitivity; [apply IH|reflexivity]. Qed.
Lemma add_eqs_adds n : forall eqs t, total (fst t) = n -> exists rs, tab_add_eqs emp s t nv dm eqs = adds t (map (fun r => expand_constraint (1 + n) nv r dm) rs) /\ incl rs (flat_map (fun r => [r; seq_neg r]) eqs) /\ (snd (tab_add_eqs emp s t nv dm eqs) = false -> rs = flat_map (fun r => [r; seq_neg r]) eqs).
Proof.
  induction eqs as [|r eqs IH]; intros t N; cbn [tab_add_eqs flat_map]; [exists []; split; [reflexivity|]; split; [apply incl_refl|reflexivity]|]. rewrite N. cbv zeta. set (t1 := tab_add_ineq emp s t _). set (t2 := tab_add_ineq emp s t1 _).
  destruct (snd t2) eqn:E.
  - exists [r; seq_neg r]. split; [reflexivity|]. split; [apply incl_appl; apply incl_refl|congruence].
  - destruct (IH t2 N) as (rs & E1 & E2 & E3). exists (r :: seq_neg r :: rs). split; [rewrite E1; reflexivity|]. split; [|intros F; rewrite (E3 F); reflexivity]. cbn [app]. intros y [<-|[<-|Hy]]; [left; reflexivity|right; left; reflexivity|right; right; apply E2; exact Hy].
Qed.
Lemma add_ineqs_adds n : forall ineqs t, total (fst t) = n -> exists rs, tab_add_ineqs emp s t nv dm ineqs = adds t (map (fun r => expand_constraint (1 + n) nv r dm) rs) /\ incl rs ineqs /\ (snd (tab_add_ineqs emp s t nv dm ineqs) = false -> rs = ineqs).
Proof.
  induction ineqs as [|r ineqs IH]; intros t N; cbn [tab_add_ineqs]; [exists []; split; [reflexivity|]; split; [apply incl_refl|reflexivity]|]. rewrite N. cbv zeta. set (t1 := tab_add_ineq emp s t _).
  destruct (snd t1) eqn:E.
  - exists [r]. split; [reflexivity|]. split; [intros y [<-|[]]; left; reflexivity|congruence].
  - destruct (IH t1 N) as (rs & E1 & E2 & E3). exists (r :: rs). split; [rewrite E1; reflexivity|]. split; [|intros F; rewrite (E3 F); reflexivity]. intros y [<-|Hy]; [left; reflexivity|right; apply E2; exact Hy].
Qed.
Lemma adds_flag : forall rs t, snd t = true -> snd (adds t rs) = true.
Proof. induction rs as [|r rs IH]; intros t H; [exact H|]. cbn [adds fold_left]. apply IH. cbn. rewrite H. reflexivity. Qed.
Lemma add_constraints_adds t : exists rs, tab_add_constraints emp s t p dm = adds t (map (fun r => expand_constraint (1 + total (fst t)) nv r dm) rs) /\ incl rs rows /\ (snd (tab_add_constraints emp s t p dm) = false -> rs = rows).
Proof.
  unfold tab_add_constraints. rewrite (sized_nvar _ PZ). cbv zeta. destruct (add_eqs_adds (total (fst t)) (b_eq p) t eq_refl) as (rs1 & E1 & I1 & C1). set (t1 := tab_add_eqs emp s t nv dm (b_eq p)) in *. destruct (add_ineqs_adds (total (fst t)) (b_ineq p) t1) as (rs2 & E2 & I2 & C2); [rewrite E1; apply adds_total|]. exists (rs1 ++ rs2). split; [rewrite E2, E1; unfold adds; rewrite map_app, fold_left_app; reflexivity|]. unfold rows. split; [apply incl_app_app; assumption|].
  intros F. rewrite (C2 F). rewrite C1; [reflexivity|]. destruct (snd t1) eqn:Q; [|reflexivity]. rewrite E2 in F. rewrite adds_flag in F by exact Q. discriminate.
Qed.
End Rows.
End Divs.
End Tab.
