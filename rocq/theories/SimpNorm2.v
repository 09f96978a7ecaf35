(** normalize_divs keeps the integer points. *)
From Coq Require Import ZArith List Bool Lia Arith Permutation.
From Verif Require Import SeqModel SeqSpec SeqProofs MatModel MatSpec MatTheory MatProofs HermiteProofs HermiteProofs2 EqModel EqSpec EqProofs EqProofs2 EqProofs4 BMapModel BMapSpec BMapSem BMapLists BMapNorm BMapGauss BMapGauss2 BMapOrder BDupModel BDupProofs BElimModel BElimSpec BElimSort BElimCols BElimProofs BElimFM BElimVars SimpModel SimpSpec SimpBase SimpDrop SimpDivs SimpShift SimpDups SimpIneq SimpGauss SimpNorm SimpNew.
Import ListNotations.
Open Scope Z_scope.

(** ** n_pure_div_eq *)
Lemma last_div_before_ok r o : forall j, match last_div_before r o j with
  | Some j' => (j' < j)%nat /\ nth (o + j') r 0 <> 0 /\ (forall k, (j' < k < j)%nat -> nth (o + k) r 0 = 0)
  | None => forall k, (k < j)%nat -> nth (o + k) r 0 = 0
  end.
Proof.
  induction j as [|j IH]; cbn [last_div_before]; [intros; lia|]. destruct (Z.eqb_spec (nth (o + j) r 0) 0) as [E|E].
  - destruct (last_div_before r o j) as [j'|].
    + destruct IH as (A & B & C). split; [lia|]. split; [exact B|]. intros k Hk. destruct (Nat.eq_dec k j) as [->|]; [exact E|apply C; lia].
    + intros k Hk. destruct (Nat.eq_dec k j) as [->|]; [exact E|apply IH; lia].
  - split; [lia|]. split; [exact E|]. intros k Hk. lia.
Qed.
Section Pure.
Variables (b : bmap) (ps : list nat).
Hypothesis EC : echelon (b_eq b) ps.
Let o := (1 + nvar b)%nat.
Lemma pivot_last i j : (i < length (b_eq b))%nat -> coef b i j <> 0 -> (forall k, (j < k)%nat -> coef b i k = 0) -> nth i ps O = (o + j)%nat.
Proof.
  intros Hi N Z0. destruct EC as (L & _ & F). destruct (F i ltac:(lia)) as (P0 & P1 & P2 & _). destruct (Nat.lt_trichotomy (nth i ps O) (o + j)) as [H|[H|H]]; [|exact H|].
  - exfalso. apply N. apply P2. exact H.
  - exfalso. specialize (Z0 (nth i ps O - o)%nat ltac:(lia)). unfold coef in Z0. fold o in Z0. replace (o + (nth i ps O - o))%nat with (nth i ps O) in Z0 by lia. lia.
Qed.
Definition pure_row (i : nat) (c : Z) : Prop := exists j, (j < ndiv b)%nat /\ coef b i j = c /\ 0 < c /\ (forall k, k <> j -> coef b i k = 0) /\ nth i ps O = (o + j)%nat.
Lemma pure_div_loop_ok : forall l i j, skipn i (b_eq b) = l -> (i <= length (b_eq b))%nat -> (j <= ndiv b)%nat -> (forall i' k, (i <= i' < length (b_eq b))%nat -> (j <= k)%nat -> coef b i' k = 0) ->
  let k := pure_div_loop o l i j in k = O \/
  ((i <= k <= length (b_eq b))%nat /\ length (div_coefs o (firstn (k - i) l) j) = (k - i)%nat /\
   (forall i', (i <= i' < k)%nat -> pure_row i' (nth (i' - i) (div_coefs o (firstn (k - i) l) j) 0)) /\ (forall i' j', (k <= i' < length (b_eq b))%nat -> coef b i' j' = 0)).
Proof.
  pose proof EC as (L & PD & PF). induction l as [|r l IH]; intros i j Hl Hi Hj Z0; cbn [pure_div_loop]; cbn zeta.
  - right. assert (LL := f_equal (@length _) Hl). rewrite skipn_length in LL. cbn in LL. split; [lia|]. rewrite Nat.sub_diag. cbn [firstn div_coefs length]. split; [reflexivity|]. split; intros; lia.
  - assert (LL := f_equal (@length _) Hl). rewrite skipn_length in LL. cbn [length] in LL. assert (Er : nth i (b_eq b) [] = r) by (rewrite <- (Nat.add_0_r i), <- nth_skipn, Hl; reflexivity).
    assert (Cr : forall k, coef b i k = nth (o + k) r 0) by (intros k; unfold coef; rewrite Er; reflexivity). pose proof (last_div_before_ok r o j) as LD.
    assert (Hl' : skipn (S i) (b_eq b) = l). { clear -Hl. revert i Hl. generalize (b_eq b) as m. induction m as [|x m IHm]; intros [|i] Hl; cbn in *; try discriminate; [injection Hl as _ <-; reflexivity|]. apply IHm. exact Hl. }
    destruct (last_div_before r o j) as [j'|] eqn:EL.
    + destruct LD as (A & B & C). assert (ZH : forall k, (j' < k)%nat -> coef b i k = 0). { intros k Hk. destruct (Nat.lt_ge_cases k j); [rewrite Cr; apply C; lia|apply Z0; lia]. }
      rewrite <- Cr in B. pose proof (pivot_last i j' ltac:(lia) B ZH) as PV. destruct (existsb _ _) eqn:EX; [left; reflexivity|].
      assert (ZL : forall k, (k < j')%nat -> coef b i k = 0). { intros k Hk. destruct (Z.eq_dec (coef b i k) 0) as [|NE]; [assumption|exfalso]. assert (F : existsb (fun k => negb (nth (o + k) r 0 =? 0)) (seq 0 j') = true); [|congruence]. apply existsb_exists. exists k. split; [apply in_seq; lia|]. rewrite <- Cr. destruct (Z.eqb_spec (coef b i k) 0); [contradiction|reflexivity]. }
      destruct (IH (S i) (S j') Hl' ltac:(lia) ltac:(lia)) as [K|(K1 & K2 & K3 & K4)].
      { intros i' k Hi' Hk. destruct (PF i' ltac:(lia)) as (_ & _ & P2 & _). apply P2. specialize (PD i i' ltac:(lia)). fold o. lia. }
      { left. exact K. }
      right. set (k := pure_div_loop o l (S i) (S j')) in *. replace (k - i)%nat with (S (k - S i)) by lia. cbn [firstn div_coefs]. rewrite EL. cbn [length]. split; [lia|]. split; [lia|]. split; [|exact K4].
      intros i' Hi'. destruct (Nat.eq_dec i' i) as [->|].
      * rewrite Nat.sub_diag. cbn [nth]. rewrite <- Cr. exists j'. split; [lia|]. split; [reflexivity|]. destruct (PF i ltac:(lia)) as (_ & P1 & _). split; [unfold coef; fold o; rewrite <- PV; exact P1|]. split; [intros k0 Hk0; destruct (Nat.lt_ge_cases k0 j'); [apply ZL; lia|apply ZH; lia]|exact PV].
      * replace (i' - i)%nat with (S (i' - S i)) by lia. cbn [nth]. apply K3. lia.
    + right. split; [lia|]. rewrite Nat.sub_diag. cbn [firstn div_coefs length]. split; [reflexivity|]. split; [intros; lia|].
      assert (ZR : forall k, coef b i k = 0). { intros k. destruct (Nat.lt_ge_cases k j); [rewrite Cr; apply LD; lia|apply Z0; lia]. }
      destruct (PF i ltac:(lia)) as (_ & P1 & _). assert (PL : (nth i ps O < o)%nat). { destruct (Nat.lt_ge_cases (nth i ps O) o) as [|GE]; [assumption|exfalso]. specialize (ZR (nth i ps O - o)%nat). unfold coef in ZR. fold o in ZR. replace (o + (nth i ps O - o))%nat with (nth i ps O) in ZR by lia. lia. }
      intros i' k Hi'. destruct (Nat.eq_dec i' i) as [->|]; [apply ZR|]. destruct (PF i' ltac:(lia)) as (_ & _ & P2 & _). apply P2. specialize (PD i i' ltac:(lia)). fold o. lia.
Qed.
End Pure.
Lemma pure_droppable b ps : wf b -> reduced b ps -> let m := n_pure_div_eq b in (0 < m)%nat -> let d := div_coefs (1 + nvar b) (firstn m (b_eq b)) (ndiv b) in
  droppable (ndiv b) b /\ (m <= length (b_eq b))%nat /\ length d = m /\ (forall x, List.In x d -> 0 < x) /\ (forall p, modc (ndiv b) b p <-> forall i, (i < m)%nat -> (nth i d 0 | vpart b i p)) /\
  (forall i j, (m <= i < length (b_eq b))%nat -> coef b i j = 0).
Proof.
  intros W [EC CL] m Hm. cbn zeta. unfold m, n_pure_div_eq in *. destruct (pure_div_loop_ok b ps EC (b_eq b) 0 (ndiv b) eq_refl ltac:(lia) ltac:(lia)) as [K|(K1 & K2 & K3 & K4)].
  { intros i k Hi Hk. unfold coef. apply nth_overflow. destruct W as (We & _). rewrite (rows_nth _ _ _ We) by lia. unfold BMapModel.total. lia. }
  { rewrite K in Hm. lia. }
  set (k := pure_div_loop (1 + nvar b) (b_eq b) 0 (ndiv b)) in *. rewrite Nat.sub_0_r in K2, K3. set (d := div_coefs (1 + nvar b) (firstn k (b_eq b)) (ndiv b)) in *.
  assert (K3' : forall i, (i < k)%nat -> pure_row b ps i (nth i d 0)) by (intros i Hi; specialize (K3 i ltac:(lia)); rewrite Nat.sub_0_r in K3; exact K3). pose proof EC as (LE & _ & PF).
  assert (NZ : forall i j, (i < length (b_eq b))%nat -> coef b i j <> 0 -> (i < k)%nat). { intros i j Hi N. destruct (Nat.lt_ge_cases i k) as [|GE]; [assumption|]. exfalso. apply N. apply K4. lia. }
  split; [|split; [lia|split; [exact K2|split; [|split; [|exact K4]]]]].
  - split; [exact W|]. split; [lia|]. split; [|intros; lia]. intros i j Hi Hj N. destruct (K3' i (NZ i j Hi N)) as (j' & Hj' & C1 & C2 & C3 & C4). assert (j = j') by (destruct (Nat.eq_dec j j'); [assumption|]; exfalso; apply N, C3; assumption). subst j'.
    split; [intros l Hl Nl; apply C3; exact Nl|]. split.
    + intros i' Hi' Ni. destruct (PF i ltac:(lia)) as (_ & _ & _ & P3). rewrite C4 in P3. apply P3; lia.
    + specialize (CL i ltac:(lia)). rewrite C4 in CL. replace (1 + nvar b + j - 1)%nat with (nvar b + j)%nat in CL by lia. exact CL.
  - intros x Hx. destruct (In_nth _ _ 0 Hx) as (i & Hi & <-). rewrite K2 in Hi. destruct (K3' i Hi) as (j & _ & _ & P & _). exact P.
  - intros p. split.
    + intros M i Hi. destruct (K3' i Hi) as (j & Hj & C1 & C2 & _). rewrite <- C1. apply M; [lia|exact Hj|lia].
    + intros M i j Hi Hj N. pose proof (NZ i j Hi N) as Hk. destruct (K3' i Hk) as (j' & Hj' & C1 & C2 & C3 & C4). assert (j = j') by (destruct (Nat.eq_dec j j'); [assumption|]; exfalso; apply N, C3; assumption). subst j'. rewrite C1. apply M. exact Hk.
Qed.

(** ** the constant terms of the transformation *)
Definition img (n : nat) (T : mat) (x : nat -> Z) : Prop := exists w, homogeneous w /\ forall i, (i < 1 + n)%nat -> x i = apply (1 + n) (elt T) w i.
Lemma col_submul_get n T f s r c : (r < 1 + n)%nat -> (c < 1 + n)%nat -> get (mat_col_submul (1 + n) (1 + n) T 0 f s) r c = if Nat.eqb c 0 then get T r c - f * get T r s else get T r c.
Proof. intros Hr Hc. unfold mat_col_submul. rewrite get_tab by assumption. reflexivity. Qed.
Lemma col_submul_apply n T f s w i : (0 < s < 1 + n)%nat -> (i < 1 + n)%nat -> homogeneous w ->
  apply (1 + n) (elt (mat_col_submul (1 + n) (1 + n) T 0 f s)) w i = apply (1 + n) (elt T) (fun k => if Nat.eqb k s then w s - f else w k) i.
Proof.
  intros Hs Hi Hw. unfold apply. change MatSpec.total with sumn. change (elt (mat_col_submul (1 + n) (1 + n) T 0 f s)) with (get (mat_col_submul (1 + n) (1 + n) T 0 f s)). change (elt T) with (get T).
  rewrite (sumn_diff2 (1 + n) 0 s (fun k => get (mat_col_submul (1 + n) (1 + n) T 0 f s) i k * w k) (fun k => get T i k * (if Nat.eqb k s then w s - f else w k))); try lia.
  - rewrite !col_submul_get by lia. destruct (Nat.eqb_spec s 0); [lia|]. destruct (Nat.eqb_spec 0 s); [lia|]. rewrite !Nat.eqb_refl. unfold homogeneous in Hw. rewrite Hw. ring.
  - intros k Hk N0 Ns. rewrite col_submul_get by lia. destruct (Nat.eqb_spec k 0); [contradiction|]. destruct (Nat.eqb_spec k s); [contradiction|reflexivity].
Qed.
Lemma col_submul_img n T f s x : (0 < s < 1 + n)%nat -> (img n (mat_col_submul (1 + n) (1 + n) T 0 f s) x <-> img n T x).
Proof.
  intros Hs. split; intros (w & Hw & E).
  - exists (fun k => if Nat.eqb k s then w s - f else w k). split; [unfold homogeneous; destruct (Nat.eqb_spec 0 s); [lia|exact Hw]|]. intros i Hi. rewrite E by exact Hi. apply col_submul_apply; assumption.
  - exists (fun k => if Nat.eqb k s then w s + f else w k). assert (H1 : homogeneous (fun k => if Nat.eqb k s then w s + f else w k)) by (unfold homogeneous; destruct (Nat.eqb_spec 0 s); [lia|exact Hw]). split; [exact H1|].
    intros i Hi. rewrite E by exact Hi. rewrite col_submul_apply by assumption. unfold apply. apply sumn_ext. intros k Hk. f_equal. rewrite Nat.eqb_refl. destruct (Nat.eqb_spec k s) as [->|]; [ring|reflexivity].
Qed.
Lemma normalize_constants_ok n T : elt T 0 0 = 1 -> reduced_triangular (1 + n) (elt T) -> let T' := normalize_constants n T in
  get T' 0 0 = 1 /\ (forall i, (i < 1 + n)%nat -> 0 < get T' i i) /\ (forall i j, (i < 1 + n)%nat -> (j < i)%nat -> get T' i i = 1 -> get T' i j = 0) /\ (forall i j, (i < j < 1 + n)%nat -> get T' i j = 0) /\ (forall x, img n T' x <-> img n T x).
Proof.
  intros T0 RT. change (elt T) with (get T) in *. cbn zeta. unfold normalize_constants. set (F := fun T i => _).
  assert (INV : forall k, (k <= n)%nat -> let T' := fold_left F (seq 0 k) T in (forall r c, (r < 1 + n)%nat -> (0 < c < 1 + n)%nat -> get T' r c = get T r c) /\ get T' 0 0 = 1 /\ (forall i, (0 < i <= k)%nat -> 0 <= get T' i 0 < get T i i) /\ (forall x, img n T' x <-> img n T x)).
  { induction k as [|k IH]; intros Hk; cbn zeta.
    - cbn [seq fold_left]. split; [reflexivity|]. split; [exact T0|]. split; [intros; lia|reflexivity].
    - rewrite seq_S, fold_left_app. cbn [fold_left Nat.add]. destruct (IH ltac:(lia)) as (A1 & A2 & A3 & A4). set (Tk := fold_left F (seq 0 k) T) in *. unfold F. change (1 + k)%nat with (S k). destruct (RT (S k) ltac:(lia)) as (P1 & P2 & P3).
      rewrite (A1 (S k) (S k)) by lia. set (v := fdiv_q (get Tk (S k) 0) (get T (S k) (S k))). assert (DM := Z.div_mod (get Tk (S k) 0) (get T (S k) (S k)) ltac:(lia)). assert (MB := Z.mod_pos_bound (get Tk (S k) 0) (get T (S k) (S k)) P1). fold v in DM. change (get Tk (S k) 0 / get T (S k) (S k)) with v in DM.
      destruct (Z.eqb_spec v 0) as [E|E].
      + split; [exact A1|]. split; [exact A2|]. split; [|exact A4]. intros i Hi. destruct (Nat.eq_dec i (S k)) as [->|]; [rewrite E in DM; lia|apply A3; lia].
      + split; [intros r c Hr Hc; rewrite col_submul_get by lia; destruct (Nat.eqb_spec c 0); [lia|apply A1; lia]|]. split; [rewrite col_submul_get by lia; cbn [Nat.eqb]; rewrite (A1 O (S k)) by lia; destruct (RT O ltac:(lia)) as (_ & Q & _); rewrite Q by lia; lia|].
        split; [|intros x; rewrite col_submul_img by lia; apply A4]. intros i Hi. rewrite col_submul_get by lia. cbn [Nat.eqb]. rewrite (A1 i (S k)) by lia. destruct (Nat.eq_dec i (S k)) as [->|]; [lia|]. destruct (RT i ltac:(lia)) as (_ & Q & _). rewrite Q by lia. rewrite Z.mul_0_r, Z.sub_0_r. apply A3. lia. }
  destruct (INV n (le_n n)) as (A1 & A2 & A3 & A4). set (T' := fold_left F (seq 0 n) T) in *. split; [exact A2|]. split; [|split; [|split; [|exact A4]]].
  - intros i Hi. destruct i as [|i]; [rewrite A2; lia|]. rewrite A1 by lia. apply RT. exact Hi.
  - intros i j Hi Hj E1. rewrite A1 in E1 by lia. destruct (RT i Hi) as (_ & _ & Q). destruct j as [|j]; [specialize (A3 i ltac:(lia)); lia|]. rewrite A1 by lia. specialize (Q (S j) ltac:(lia)). lia.
  - intros i j Hij. rewrite A1 by lia. destruct (RT i ltac:(lia)) as (_ & Q & _). apply Q. exact Hij.
Qed.

(** ** normalize_divs *)
Lemma apply_triangular n (T : mat) w i : (i < 1 + n)%nat -> (forall j, (i < j < 1 + n)%nat -> get T i j = 0) -> apply (1 + n) (elt T) w i = sumn i (fun j => get T i j * w j) + get T i i * w i.
Proof.
  intros Hi Z0. unfold apply. change MatSpec.total with sumn. change (elt T) with (get T). replace (1 + n)%nat with (S i + (n - i))%nat by lia. rewrite sumn_split. cbn [sumn]. rewrite (sumn_0 (n - i)); [ring|]. intros k Hk. rewrite Z0 by lia. ring.
Qed.
Definition pure_zero (b : bmap) (p : list Z) : Prop := forall i, (i < length (b_eq b))%nat -> (forall j, (j < ndiv b)%nat -> coef b i j = 0) -> vpart b i p = 0.
Lemma system_pure b p e : wf b -> length p = (1 + nvar b)%nat -> length e = ndiv b -> system (b_eq b) (b_ineq b) (p ++ e) -> pure_zero b p.
Proof.
  intros (We & _) Lp Le [S1 _] i Hi Z0. unfold vpart. rewrite <- Lp. rewrite <- (dot_tail0 _ p e); [|rewrite (rows_nth _ _ _ We) by exact Hi; unfold BMapModel.total; lia|intros k Hk; rewrite Lp; apply Z0; lia]. apply (proj1 (Forall_forall _ _) S1). apply nth_In. exact Hi.
Qed.
Lemma set_empty_ordered b : good b -> ordered (set_to_empty b).
Proof. intros G. apply ordered_nil. apply set_to_empty_bare. apply G. Qed.
Lemma normalize_divs_with_pres b ps n B C2 p b' p' : good b -> ordered b -> (0 < ndiv b)%nat -> reduced b ps -> let m := n_pure_div_eq b in (0 < m)%nat -> is_mat m (1 + n) B ->
  (forall i, (i < 1 + n)%nat -> length (xrow (nvar b) C2 i) = (1 + nvar b)%nat) -> match C2 with Some _ => (1 + n <= 1 + nvar b)%nat | None => (1 + n)%nat = (1 + nvar b)%nat end ->
  (forall q, length q = (1 + nvar b)%nat -> hd 0 q = 1 -> pure_zero b q -> xval (nvar b) C2 0 q = 1 /\ forall i, (i < m)%nat -> apply (1 + n) (elt B) (fun k => xval (nvar b) C2 k q) i = vpart b i q) ->
  normalize_divs_with b m n B C2 p = Ok (b', p') -> pres b b' /\ ordered b'.
Proof.
  intros G OR Hd RD m Hm WB XL NV LK. pose proof G as (W & A & D & I & R & BB). destruct (good_int b 0 G Hd) as [RF EF]. destruct (pure_droppable b ps W RD Hm) as (DR & ML & LD & DP & MC & _). fold m in DR, ML, LD, DP, MC. unfold normalize_divs_with.
  set (d := div_coefs (1 + nvar b) (firstn m (b_eq b)) (ndiv b)) in *. pose proof (parameter_compression_ok m n B d WB LD DP) as PC. 
  assert (CG : forall q, length q = (1 + nvar b)%nat -> hd 0 q = 1 -> pure_zero b q -> (modc (ndiv b) b q <-> congruent m (1 + n) (elt B) (fun i => nth i d 0) (fun k => xval (nvar b) C2 k q))).
  { intros q Lq Hq PZ. destruct (LK q Lq Hq PZ) as [_ L1]. rewrite MC. unfold congruent. split; intros H i Hi; specialize (H i Hi); rewrite L1 in * by exact Hi; exact H. }
  destruct (parameter_compression m n B d) as [[T|]| | |]; try discriminate.
  - destruct PC as (WT & (PA & PB & _) & T0 & RT). destruct (normalize_constants_ok n T T0 RT) as (N1 & N2 & N3 & N4 & N5). set (T' := normalize_constants n T) in *. intros [= <- <-].
    assert (R2 := normalize_core b n T' C2 G OR Hd DR XL NV N1 N2 N3). cbn zeta in R2. apply R2. intros q Lq Hq PZ. rewrite (CG q Lq Hq PZ). destruct (LK q Lq Hq PZ) as [X0 _]. set (x := fun k => xval (nvar b) C2 k q) in *.
    assert (IM : congruent m (1 + n) (elt B) (fun i => nth i d 0) x <-> img n T x).
    { split; [intros C; apply (PB x X0 C)|]. intros (w & Hw & E). apply (congruent_ext m (1 + n) _ _ (apply (1 + n) (elt T) w)); [intros; symmetry; apply E; assumption|]. apply (PA w Hw). }
    rewrite IM, <- N5. split.
    + intros (w & Hw & E). exists w. intros i Hi. unfold eqn. change (xval (nvar b) C2 i q) with (x i). rewrite E by exact Hi. apply apply_triangular; [exact Hi|]. intros j Hj. apply N4. exact Hj.
    + intros (w & E). exists w. split; [specialize (E O ltac:(lia)); unfold eqn in E; cbn [sumn] in E; rewrite N1, X0 in E; unfold homogeneous; lia|]. intros i Hi. rewrite apply_triangular; [apply E; exact Hi|exact Hi|]. intros j Hj. apply N4. exact Hj.
  - intros [= <- <-]. split; [|apply set_empty_ordered; exact G]. apply pres_set_empty; [exact G|]. intros q Lq Hq (_ & e & Le & Se). pose proof (proj2 Hq RF) as H1. pose proof (system_pure b q e W Lq Le Se) as PZ. destruct (drop_eq_divs_ok (ndiv b) b DR) as (_ & _ & _ & _ & _ & D6 & _). destruct (D6 q e Lq Le Se) as [M _]. apply (CG q Lq H1 PZ) in M. apply (PC _ (proj1 (LK q Lq H1 PZ)) M).
Qed.
