(** Proofs about isl_mat_right_inverse, isl_mat_inverse_product and the simple
    matrix operations. *)
From Coq Require Import ZArith List Bool Lia Arith ZifyBool.
From Verif Require Import SeqModel SeqSpec SeqProofs MatModel MatSpec MatTheory HermiteProofs HermiteProofs2.
Import ListNotations.
Open Scope Z_scope.

(** ** more operations that preserve invertibility *)
Lemma invp_colscale n U P s a j : (j < n)%nat -> invp n U P s ->
  invp n (colscale a j U) (fun r c => if Nat.eqb r j then P j c else a * P r c) (a * s).
Proof.
  intros Hj [A B]. split; intros r c Hr Hc.
  - rewrite <- Z.mul_assoc, <- (A r c Hr Hc). unfold mmul. rewrite <- sumn_mul. apply sumn_ext. intros k Hk. unfold colscale.
    destruct (Nat.eqb_spec k j) as [->|]; ring.
  - transitivity ((if Nat.eqb r j then 1 else a) * (if Nat.eqb c j then a else 1) * mmul n P U r c).
    + unfold mmul. rewrite <- sumn_mul. apply sumn_ext. intros k Hk. unfold colscale.
      destruct (Nat.eqb_spec r j) as [->|], (Nat.eqb_spec c j) as [->|]; ring.
    + rewrite (B r c Hr Hc). unfold Id.
      destruct (Nat.eqb_spec r j) as [->|], (Nat.eqb_spec c j) as [->|]; try rewrite Nat.eqb_refl; try ring.
      * destruct (Nat.eqb_spec j c); [congruence|ring].
      * destruct (Nat.eqb_spec r j); [congruence|ring].
Qed.
Definition rowcomb (a b : Z) (i j : nat) (L : nat -> nat -> Z) : nat -> nat -> Z :=
  fun r c => if Nat.eqb r j then a * L j c + b * L i c else L r c.
Lemma invp_rowcomb n L P s a b i j : (i < n)%nat -> (j < n)%nat -> i <> j -> invp n L P s ->
  exists P', invp n (rowcomb a b i j L) P' (a * s).
Proof.
  intros Hi Hj Hij H. apply invp_tr, invp_sym in H. apply (invp_comb n _ _ s a b i j Hi Hj Hij) in H.
  apply invp_sym, invp_tr in H. eexists. exact H.
Qed.
Lemma invp_rowscale n L P s a j : (j < n)%nat -> invp n L P s -> exists P', invp n (rowscale a j L) P' (a * s).
Proof.
  intros Hj H. apply invp_tr, invp_sym in H. apply (invp_colscale n _ _ s a j Hj) in H.
  apply invp_sym, invp_tr in H. eexists. exact H.
Qed.
Lemma invp_rowswp n L P s i j : (i < n)%nat -> (j < n)%nat -> invp n L P s -> exists P', invp n (fun r c => L (swp i j r) c) P' s.
Proof.
  intros Hi Hj H. apply invp_sym in H. apply (invp_swp n P L s i j Hi Hj) in H. apply invp_sym in H. eexists. exact H.
Qed.
Lemma mmul_rowcomb n L A a b i j r c : mmul n (rowcomb a b i j L) A r c = rowcomb a b i j (mmul n L A) r c.
Proof.
  unfold mmul, rowcomb. destruct (Nat.eqb r j); [|reflexivity].
  rewrite (sumn_ext n _ (fun k => a * (L j k * A k c) + b * (L i k * A k c))) by (intros; ring).
  rewrite sumn_add, !sumn_mul. reflexivity.
Qed.
Lemma mmul_rowscale n L A a j r c : mmul n (rowscale a j L) A r c = rowscale a j (mmul n L A) r c.
Proof. unfold mmul, rowscale. destruct (Nat.eqb r j); [|reflexivity]. rewrite <- sumn_mul. apply sumn_ext. intros. ring. Qed.

(** a left inverse up to a factor is a right inverse *)
Lemma left_right n X P s A a : s <> 0 -> invp n X P s ->
  (forall i j, (i < n)%nat -> (j < n)%nat -> mmul n X A i j = a * Id i j) ->
  forall i j, (i < n)%nat -> (j < n)%nat -> mmul n A X i j = a * Id i j.
Proof.
  intros Hs [_ B] H i j Hi Hj.
  assert (E : s * mmul n A X i j = s * (a * Id i j)); [|nia].
  transitivity (mmul n (mmul n P X) (mmul n A X) i j).
  { rewrite (mmul_ext n (mmul n P X) (fun i j => s * Id i j) _ (mmul n A X)) by auto.
    rewrite mmul_scale_l, mmul_Id_l by exact Hi. reflexivity. }
  rewrite mmul_assoc.
  rewrite (mmul_ext n P P _ (fun i j => a * X i j)).
  - rewrite mmul_scale_r, (B i j Hi Hj). ring.
  - reflexivity.
  - intros k Hk. rewrite <- mmul_assoc. rewrite (mmul_ext n _ (fun i j => a * Id i j) X X) by auto.
    rewrite mmul_scale_l, mmul_Id_l by exact Hk. reflexivity.
Qed.
Lemma right_left n X P s A a : s <> 0 -> invp n X P s ->
  (forall i j, (i < n)%nat -> (j < n)%nat -> mmul n A X i j = a * Id i j) ->
  forall i j, (i < n)%nat -> (j < n)%nat -> mmul n X A i j = a * Id i j.
Proof.
  intros Hs HI H i j Hi Hj. rewrite <- mmul_tr. rewrite Id_sym.
  apply (left_right n (tr X) (tr P) s (tr A) a Hs).
  - apply invp_sym, invp_tr. exact HI.
  - intros i' j' Hi' Hj'. rewrite mmul_tr, H, Id_sym by assumption. reflexivity.
  - assumption.
  - assumption.
Qed.

(** a common non-zero multiple *)
Lemma common_multiple (D x : nat -> Z) n : (forall i, (i < n)%nat -> D i <> 0) ->
  exists k w, k <> 0 /\ forall i, (i < n)%nat -> w i * D i = k * x i.
Proof.
  induction n as [|n IH]; intros H; [exists 1, (fun _ => 0); split; [lia|intros; lia]|].
  destruct IH as (k & w & Hk & Hw); [auto|].
  exists (k * D n), (fun i => if Nat.eqb i n then k * x n else D n * w i). split.
  - specialize (H n (Nat.lt_succ_diag_r _)). nia.
  - intros i Hi. destruct (Nat.eqb_spec i n) as [->|]; [ring|]. rewrite <- Z.mul_assoc, Hw by lia. ring.
Qed.

Lemma lcm_fold (D : nat -> Z) rows : forall a0, (forall r, In r rows -> D r <> 0) -> a0 <> 0 -> (rows <> [] \/ 0 < a0) ->
  let a := fold_left (fun a r => Z.lcm a (D r)) rows a0 in 0 < a /\ (a0 | a) /\ forall r, In r rows -> (D r | a).
Proof.
  induction rows as [|r rows IH]; intros a0 HD H0 HP; cbn [fold_left].
  - split; [destruct HP; [congruence|assumption]|]. split; [reflexivity|]. intros r [].
  - assert (N : D r <> 0) by (apply HD; left; reflexivity).
    assert (HP2 : 0 < Z.lcm a0 (D r)).
    { pose proof (Z.lcm_nonneg a0 (D r)). assert (Z.lcm a0 (D r) <> 0); [|lia]. intros E. apply Z.lcm_eq_0 in E. destruct E; congruence. }
    destruct (IH (Z.lcm a0 (D r))) as (A & B & C); [intros; apply HD; right; assumption|lia|right; exact HP2|].
    split; [exact A|]. split; [etransitivity; [apply Z.divide_lcm_l|exact B]|].
    intros r' [<-|H']; [etransitivity; [apply Z.divide_lcm_r|exact B]|auto].
Qed.
Lemma gcd_pos_l a b : 0 < a -> 0 < Z.gcd a b.
Proof. intros H. pose proof (Z.gcd_nonneg a b). assert (Z.gcd a b <> 0); [|lia]. intros E. apply Z.gcd_eq_0_l in E. lia. Qed.
Lemma divexact_gcd p x : 0 < p -> let g := Z.gcd p x in
  0 < divexact p g /\ divexact p g * x = divexact x g * p.
Proof.
  intros Hp g. pose proof (gcd_pos_l p x Hp : 0 < g) as Hg.
  destruct (Z.gcd_divide_l p x) as [u Hu]. destruct (Z.gcd_divide_r p x) as [v Hv]. fold g in Hu, Hv.
  unfold divexact. rewrite Hu, Hv. rewrite !Z.div_mul by lia. split; nia.
Qed.

Section RightInverse.
Variables (nr nc : nat) (M0 : nat -> nat -> Z).
Let C := core nr nc M0.

(** the first [row] rows are diagonal *)
Definition diag (row : nat) (s : hst) : Prop :=
  (forall r c, (r < row)%nat -> (c < nc)%nat -> r <> c -> get (hM s) r c = 0) /\
  (forall r, (r < row)%nat -> get (hM s) r r <> 0).

Lemma clear_col_ok row s P sc i : (row < nr)%nat -> (row < nc)%nat -> (i < row)%nat -> C s P sc -> sc <> 0 ->
  diag row s -> 0 < get (hM s) row row ->
  let s' := clear_col nr nc row s i in
  exists P' sc', C s' P' sc' /\ sc' <> 0 /\ diag row s' /\ get (hM s') row i = 0 /\
    forall c, (c < nc)%nat -> c <> i -> get (hM s') row c = get (hM s) row c.
Proof.
  intros Hrow Hcol Hi HC Hs HD Hp. unfold clear_col.
  destruct (Z.eqb_spec (get (hM s) row i) 0) as [E|E].
  { exists P, sc. auto. }
  destruct (divexact_gcd (get (hM s) row row) (get (hM s) row i) Hp) as (A1 & A2).
  set (g := Z.gcd (get (hM s) row row) (get (hM s) row i)) in *.
  set (a := divexact (get (hM s) row row) g) in *. set (b := divexact (get (hM s) row i) g) in *.
  set (s' := mkh _ _ _).
  assert (EM : forall r c, (r < nr)%nat -> (c < nc)%nat -> get (hM s') r c = colcomb (- a) b row i (get (hM s)) r c).
  { intros r c Hr Hc. unfold s', mat_col_combine. cbn [hM]. rewrite get_tab by assumption. reflexivity. }
  assert (EU : forall r c, (r < nc)%nat -> (c < nc)%nat -> get (hU s') r c = colcomb (- a) b row i (get (hU s)) r c).
  { intros r c Hr Hc. unfold s', mat_col_combine. cbn [hU]. rewrite get_tab by assumption. reflexivity. }
  exists (rowadj (- a) b row i P), (- a * sc). split; [|split; [nia|split; [|split]]].
  - split.
    + apply wf_tab.
    + intros r c Hr Hc. rewrite EM by assumption.
      rewrite (mmul_ext nc M0 M0 (get (hU s')) (colcomb (- a) b row i (get (hU s)))) by (intros; auto).
      rewrite mmul_colcomb. unfold colcomb. rewrite <- !(c_M _ _ _ _ _ _ HC) by (try assumption; lia). reflexivity.
    + apply (invp_ext nc (colcomb (- a) b row i (get (hU s))) (rowadj (- a) b row i P)); [|reflexivity|apply invp_comb; try lia; apply HC].
      intros. symmetry. apply EU; assumption.
  - destruct HD as [D1 D2]. split.
    + intros r c Hr Hc Hne. rewrite EM by lia. unfold colcomb. destruct (Nat.eqb_spec c i) as [->|]; [|apply D1; assumption].
      rewrite (D1 r i), (D1 r row) by lia. ring.
    + intros r Hr. rewrite EM by lia. unfold colcomb. destruct (Nat.eqb_spec r i) as [->|]; [|apply D2; assumption].
      rewrite (D1 i row) by lia. specialize (D2 i Hr). nia.
  - rewrite EM by lia. unfold colcomb. rewrite Nat.eqb_refl. lia.
  - intros c Hc Hne. rewrite EM by lia. unfold colcomb. destruct (Nat.eqb_spec c i); [contradiction|reflexivity].
Qed.
Lemma clear_all row : (row < nr)%nat -> (row < nc)%nat -> forall n s P sc, (n <= row)%nat -> C s P sc -> sc <> 0 ->
  diag row s -> 0 < get (hM s) row row ->
  let s' := fold_left (clear_col nr nc row) (seq 0 n) s in
  exists P' sc', C s' P' sc' /\ sc' <> 0 /\ diag row s' /\ (forall i, (i < n)%nat -> get (hM s') row i = 0) /\
    forall c, (n <= c < nc)%nat -> get (hM s') row c = get (hM s) row c.
Proof.
  intros Hrow Hcol. induction n as [|n IH]; intros s P sc Hn HC Hs HD Hp.
  { exists P, sc. cbn. split; [exact HC|]. split; [exact Hs|]. split; [exact HD|]. split; [lia|auto]. }
  rewrite seq_S, fold_left_app. cbn [plus fold_left].
  destruct (IH s P sc ltac:(lia) HC Hs HD Hp) as (P1 & sc1 & C1 & S1 & D1 & Z1 & K1).
  set (s1 := fold_left (clear_col nr nc row) (seq 0 n) s) in *.
  destruct (clear_col_ok row s1 P1 sc1 n Hrow Hcol ltac:(lia) C1 S1 D1) as (P2 & sc2 & C2 & S2 & D2 & Z2 & K2).
  { rewrite K1 by lia. exact Hp. }
  exists P2, sc2. split; [exact C2|]. split; [exact S2|]. split; [exact D2|]. split.
  - intros i Hi. destruct (Nat.eq_dec i n) as [->|]; [exact Z2|]. rewrite K2 by lia. apply Z1. lia.
  - intros c Hc. rewrite K2 by lia. apply K1. lia.
Qed.

Definition dependent_rows : Prop :=
  exists v, (exists r, (r < nr)%nat /\ v r <> 0) /\ forall c, (c < nc)%nat -> sumn nr (fun r => v r * M0 r c) = 0.

Lemma right_loop_ok : forall n row s P sc, (row + n = nr)%nat -> C s P sc -> sc <> 0 -> diag row s ->
  (row = 0%nat \/ 0 < get (hM s) (row - 1) (row - 1)) ->
  match right_inverse_loop nr nc (seq row n) s with
  | Ok s' => (row <= nc -> nr <= nc)%nat /\ exists P' sc', C s' P' sc' /\ sc' <> 0 /\ diag nr s' /\ (nr = 0%nat \/ 0 < get (hM s') (nr - 1) (nr - 1))
  | Null => dependent_rows
  | _ => False
  end.
Proof.
  induction n as [|n IH]; intros row s P sc Hn HC Hs HD Hlast; cbn [seq right_inverse_loop].
  { assert (row = nr) by lia. subst row. split; [auto|]. exists P, sc. auto. }
  assert (Z : zeros nc row row s). { intros r c Hr Hc. apply HD; lia. }
  pose proof (pivot_row_ok nr nc M0 row row s P sc ltac:(lia) HC Z) as F.
  destruct (pivot_row nr nc s row row) as [[s1|]|]; [| |exact F].
  - destruct F as (Hlt & P1 & C1 & _ & K1 & N1 & Z1).
    assert (D1 : diag row s1).
    { destruct HD as [A B]. split; intros; rewrite K1 by lia; auto. }
    destruct (clear_all row ltac:(lia) Hlt row s1 P1 sc (Nat.le_refl _) C1 Hs D1 N1) as (P2 & sc2 & C2 & S2 & D2 & Z2 & K2).
    set (s2 := fold_left (clear_col nr nc row) (seq 0 row) s1) in *.
    assert (DD : diag (S row) s2).
    { destruct D2 as [A B]. split.
      - intros r c Hr Hc Hne. destruct (Nat.eq_dec r row) as [->|]; [|apply A; lia].
        destruct (Nat.lt_ge_cases c row); [apply Z2; assumption|]. rewrite K2 by lia. apply Z1. lia.
      - intros r Hr. destruct (Nat.eq_dec r row) as [->|]; [|apply B; lia]. rewrite K2 by lia. lia. }
    specialize (IH (S row) s2 P2 sc2 ltac:(lia) C2 S2 DD).
    destruct (right_inverse_loop nr nc (seq (S row) n) s2).
    + destruct IH as (I1 & I2).
      * right. replace (S row - 1)%nat with row by lia. rewrite K2 by lia. exact N1.
      * split; [intros _; apply I1; lia|exact I2].
    + apply IH. right. replace (S row - 1)%nat with row by lia. rewrite K2 by lia. exact N1.
    + apply IH. right. replace (S row - 1)%nat with row by lia. rewrite K2 by lia. exact N1.
    + apply IH. right. replace (S row - 1)%nat with row by lia. rewrite K2 by lia. exact N1.
  - (* the row depends on the previous ones *)
    set (m := Nat.min row nc).
    destruct (common_multiple (fun i => get (hM s) i i) (fun i => - get (hM s) row i) m) as (k & w & Hk & Hw).
    { intros i Hi. apply HD. unfold m in Hi. lia. }
    exists (fun r => if Nat.eqb r row then k else if Nat.ltb r m then w r else 0). split.
    { exists row. split; [lia|]. rewrite Nat.eqb_refl. exact Hk. }
    set (v := fun r => if Nat.eqb r row then k else if Nat.ltb r m then w r else 0).
    assert (V : forall c, (c < nc)%nat -> sumn nr (fun r => v r * get (hM s) r c) = 0).
    { intros c Hc. destruct (Nat.lt_ge_cases c row) as [L|L].
      - rewrite (sumn_diff2 nr c row _ (fun _ => 0)); try lia.
        + rewrite sumn_0 by reflexivity. unfold v. rewrite Nat.eqb_refl. destruct (Nat.eqb_spec c row); [lia|].
          destruct (Nat.ltb_spec c m); [|unfold m in *; lia]. rewrite Hw by assumption. ring.
        + intros r Hr Hn1 Hn2. unfold v. destruct (Nat.eqb_spec r row); [lia|]. destruct (Nat.ltb_spec r m); [|ring].
          destruct HD as [A _]. rewrite A by (unfold m in *; lia). ring.
      - apply sumn_0. intros r Hr. unfold v. destruct (Nat.eqb_spec r row); [subst; rewrite F by lia; ring|].
        destruct (Nat.ltb_spec r m); [|ring]. destruct HD as [A _]. rewrite A by (unfold m in *; lia). ring. }
    (* v M0 U = 0, hence v M0 = 0 *)
    intros c Hc.
    set (x := fun c => sumn nr (fun r => v r * M0 r c)).
    assert (X1 : forall c, (c < nc)%nat -> mmul nc (fun _ k => x k) (get (hU s)) 0 c = 0).
    { intros c' Hc'. transitivity (mmul nc (mmul nr (fun _ k => v k) M0) (get (hU s)) 0 c'); [reflexivity|].
      rewrite mmul_assoc. unfold mmul at 1. rewrite <- (V c' Hc'). apply sumn_ext. intros r Hr.
      rewrite <- (c_M _ _ _ _ _ _ HC) by assumption. reflexivity. }
    assert (X2 : mmul nc (mmul nc (fun _ k => x k) (get (hU s))) P 0 c = sc * x c).
    { rewrite mmul_assoc. rewrite (mmul_ext nc _ (fun _ k => x k) _ (fun i j => sc * Id i j)); [|reflexivity|].
      - rewrite mmul_scale_r, mmul_Id_r by exact Hc. reflexivity.
      - intros k' Hk'. apply (c_inv _ _ _ _ _ _ HC); assumption. }
    rewrite (mmul_ext nc _ (fun _ _ => 0) _ P) in X2; [|exact X1|reflexivity].
    unfold mmul in X2. rewrite sumn_0 in X2 by (intros; ring). change (x c = 0). symmetry in X2. apply Z.mul_eq_0 in X2. destruct X2; [contradiction|assumption].
Qed.
End RightInverse.

(** the final scaling *)
Lemma scale_cols nc (D : nat -> Z) (a : Z) : forall n U P sc, (n <= nc)%nat -> sc <> 0 -> invp nc (get U) P sc ->
  (forall r, (r < n)%nat -> D r <> 0 /\ (D r | a)) -> a <> 0 ->
  let U' := fold_left (fun inv r => let m := divexact a (D r) in if m =? 1 then inv else mat_col_scale nc nc inv r m) (seq 0 n) U in
  (exists P' sc', invp nc (get U') P' sc' /\ sc' <> 0) /\
  (forall i r, (i < nc)%nat -> (r < nc)%nat -> get U' i r = if Nat.ltb r n then get U i r * (a / D r) else get U i r).
Proof.
  induction n as [|n IH]; intros U P sc Hn Hs HI HD Ha.
  { cbn. split; [exists P, sc; auto|]. auto. }
  rewrite seq_S, fold_left_app. cbn [plus fold_left].
  destruct (IH U P sc ltac:(lia) Hs HI ltac:(auto) Ha) as ((P1 & sc1 & I1 & S1) & E1).
  set (U1 := fold_left _ (seq 0 n) U) in *. destruct (HD n ltac:(lia)) as (N & (q & Hq)).
  assert (Em : divexact a (D n) = q). { unfold divexact. rewrite Hq. apply Z.div_mul. exact N. }
  assert (Eq : forall i r, (i < nc)%nat -> (r < nc)%nat ->
     (if Nat.ltb r (S n) then get U i r * (a / D r) else get U i r) = colscale q n (get U1) i r).
  { intros i r Hi Hr. unfold colscale. destruct (Nat.eqb_spec r n) as [->|].
    - destruct (Nat.ltb_spec n (S n)); [|lia]. rewrite E1 by assumption. destruct (Nat.ltb_spec n n); [lia|].
      unfold divexact in Em. rewrite Em. ring.
    - rewrite E1 by assumption. destruct (Nat.ltb_spec r (S n)), (Nat.ltb_spec r n); try lia; reflexivity. }
  rewrite Em. destruct (Z.eqb_spec q 1) as [->|Hq1].
  - split; [exists P1, sc1; auto|]. intros i r Hi Hr. rewrite Eq by assumption. unfold colscale. destruct (Nat.eqb_spec r n); subst; ring.
  - assert (E2 : forall i r, (i < nc)%nat -> (r < nc)%nat -> get (mat_col_scale nc nc U1 n q) i r = colscale q n (get U1) i r).
    { intros i r Hi Hr. unfold mat_col_scale, colscale. rewrite get_tab by assumption. destruct (Nat.eqb r n); ring. }
    split.
    + eexists _, (q * sc1). split; [|nia]. apply (invp_ext nc (colscale q n (get U1)) (fun r c => if Nat.eqb r n then P1 n c else q * P1 r c)).
      * intros. symmetry. apply E2; assumption.
      * intros. reflexivity.
      * apply invp_colscale; [lia|exact I1].
    + intros i r Hi Hr. rewrite E2, Eq by assumption. reflexivity.
Qed.

Lemma right_inverse_ok nr nc M : is_mat nr nc M -> (1 <= nr)%nat ->
  match right_inverse nr nc M with
  | Ok inv => exists a, 0 < a /\ (nr <= nc)%nat /\
      (forall i j, (i < nr)%nat -> (j < nc)%nat -> times nc (elt M) (elt inv) i j = a * delta i j) /\
      (nr = nc -> forall i j, (i < nr)%nat -> (j < nr)%nat -> times nr (elt inv) (elt M) i j = a * delta i j)
  | Null => exists v, (exists r, (r < nr)%nat /\ v r <> 0) /\ forall c, (c < nc)%nat -> total nr (fun r => v r * elt M r c) = 0
  | _ => False
  end.
Proof.
  intros W Hnr. unfold right_inverse. set (s0 := mkh M (mat_identity nc) (mat_identity nc)).
  assert (C0 : core nr nc (get M) s0 Id 1).
  { split.
    - exact W.
    - intros r c Hr Hc. cbn [hM hU s0]. rewrite (mmul_ext nc _ (get M) _ Id) by (intros; try apply get_identity; auto).
      rewrite mmul_Id_r by exact Hc. reflexivity.
    - apply (invp_ext nc Id Id); [| |apply invp_Id]; intros; [symmetry; apply get_identity; assumption|reflexivity]. }
  pose proof (right_loop_ok nr nc (get M) nr 0 s0 Id 1 ltac:(lia) C0 ltac:(lia)) as F.
  destruct (right_inverse_loop nr nc (seq 0 nr) s0) as [s| | |].
  2:{ apply F; [split; intros; lia|left; reflexivity]. }
  2:{ apply F; [split; intros; lia|left; reflexivity]. }
  2:{ apply F; [split; intros; lia|left; reflexivity]. }
  destruct F as (Hle & P & sc & C & Hs & HD & Hlast); [split; intros; lia|left; reflexivity|].
  specialize (Hle ltac:(lia)). destruct (Nat.eqb_spec nr 0); [lia|].
  destruct HD as [D1 D2].
  destruct (lcm_fold (fun r => get (hM s) r r) (seq 1 (nr - 1)) (get (hM s) 0 0)) as (A1 & A2 & A3).
  { intros r Hr. apply in_seq in Hr. apply D2. lia. }
  { apply D2. lia. }
  { destruct (Nat.eq_dec nr 1) as [E|E]; [right; subst; destruct Hlast; [lia|assumption]|]. left. destruct (nr - 1)%nat eqn:E1; [lia|discriminate]. }
  set (a := fold_left _ _ _) in *. destruct (Z.eqb_spec a 0); [lia|].
  assert (DV : forall r, (r < nr)%nat -> get (hM s) r r <> 0 /\ (get (hM s) r r | a)).
  { intros r Hr. split; [apply D2; exact Hr|]. destruct r as [|r]; [exact A2|]. apply (A3 (S r)). apply in_seq. lia. }
  destruct (scale_cols nc (fun r => get (hM s) r r) a nr (hU s) P sc Hle Hs (c_inv _ _ _ _ _ _ C) DV ltac:(lia)) as ((P' & sc' & I' & S') & E').
  set (U' := fold_left _ (seq 0 nr) (hU s)) in *.
  assert (R : forall i j, (i < nr)%nat -> (j < nc)%nat -> mmul nc (get M) (get U') i j = a * Id i j).
  { intros i j Hi Hj. destruct (Nat.lt_ge_cases j nr) as [L|L].
    - transitivity (get (hM s) i j * (a / get (hM s) j j)).
      + rewrite (c_M _ _ _ _ _ _ C) by lia. unfold mmul. rewrite <- sumn_mul_r. apply sumn_ext. intros k Hk.
        rewrite E' by assumption. destruct (Nat.ltb_spec j nr); [ring|lia].
      + unfold Id. destruct (Nat.eqb_spec i j) as [->|]; [|rewrite D1 by assumption; ring].
        destruct (DV j L) as (N & (q & ->)). rewrite Z.div_mul by exact N. ring.
    - transitivity (get (hM s) i j).
      + rewrite (c_M _ _ _ _ _ _ C) by lia. unfold mmul. apply sumn_ext. intros k Hk.
        rewrite E' by assumption. destruct (Nat.ltb_spec j nr); [lia|reflexivity].
      + unfold Id. destruct (Nat.eqb_spec i j); [lia|]. rewrite D1 by lia. ring. }
  exists a. split; [lia|]. split; [exact Hle|]. split; [exact R|].
  intros En i j Hi Hj. rewrite <- En in *. apply (right_left nr (get U') P' sc' (get M) a S' I' R i j Hi Hj).
Qed.
