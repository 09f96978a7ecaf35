(** Proofs about isl_mat_inverse_product and the simple matrix operations. *)
From Coq Require Import ZArith List Bool Lia Arith ZifyBool.
From Verif Require Import SeqModel SeqSpec SeqProofs MatModel MatSpec MatTheory HermiteProofs HermiteProofs2 InverseProofs.
Import ListNotations.
Open Scope Z_scope.

Section InverseProduct.
Variables (n m : nat) (A B : nat -> nat -> Z).

Record icore (s : ist) (L P : nat -> nat -> Z) (sc : Z) : Prop := {
  i_L : forall r c, (r < n)%nat -> (c < n)%nat -> get (iL s) r c = mmul n L A r c;
  i_R : forall r c, (r < n)%nat -> (c < m)%nat -> get (iR s) r c = mmul n L B r c;
  i_inv : invp n L P sc }.

(** below: the columns before [row] are diagonal *)
Definition idiag (row : nat) (s : ist) : Prop :=
  (forall r c, (r < n)%nat -> (c < row)%nat -> r <> c -> get (iL s) r c = 0) /\
  (forall c, (c < row)%nat -> 0 < get (iL s) c c).

Lemma iexch_ok s L P sc i j : icore s L P sc -> (i < n)%nat -> (j < n)%nat ->
  let s' := inv_exchange n m s i j in
  (exists L' P', icore s' L' P' sc) /\
  forall r c, (r < n)%nat -> (c < n)%nat -> get (iL s') r c = get (iL s) (swp i j r) c.
Proof.
  intros [HL HR HI] Hi Hj s'.
  assert (E : forall r c, (r < n)%nat -> (c < n)%nat -> get (iL s') r c = get (iL s) (swp i j r) c).
  { intros r c Hr Hc. unfold s', inv_exchange, mat_swap_rows. cbn [iL]. rewrite get_tab by assumption. unfold swp.
    destruct (Nat.eqb r i); [reflexivity|]. destruct (Nat.eqb r j); reflexivity. }
  assert (ER : forall r c, (r < n)%nat -> (c < m)%nat -> get (iR s') r c = get (iR s) (swp i j r) c).
  { intros r c Hr Hc. unfold s', inv_exchange, mat_swap_rows. cbn [iR]. rewrite get_tab by assumption. unfold swp.
    destruct (Nat.eqb r i); [reflexivity|]. destruct (Nat.eqb r j); reflexivity. }
  split; [|exact E]. destruct (invp_rowswp n L P sc i j Hi Hj HI) as (P' & HI').
  exists (fun r c => L (swp i j r) c), P'. split.
  - intros r c Hr Hc. rewrite E, HL by (try apply swp_lt; assumption). reflexivity.
  - intros r c Hr Hc. rewrite ER, HR by (try apply swp_lt; assumption). reflexivity.
  - exact HI'.
Qed.
Lemma ioppose_ok s L P sc row : icore s L P sc -> (row < n)%nat -> (forall c, (c < row)%nat -> get (iL s) row c = 0) ->
  let s' := inv_oppose n m s row in
  (exists L' P' , icore s' L' P' (-1 * sc)) /\
  forall r c, (r < n)%nat -> (c < n)%nat -> get (iL s') r c = if Nat.eqb r row then - get (iL s) row c else get (iL s) r c.
Proof.
  intros [HL HR HI] Hrow HZ s'.
  assert (E : forall r c, (r < n)%nat -> (c < n)%nat -> get (iL s') r c = if Nat.eqb r row then - get (iL s) row c else get (iL s) r c).
  { intros r c Hr Hc. unfold s', inv_oppose. cbn [iL]. rewrite get_tab by assumption.
    destruct (Nat.eqb_spec r row) as [->|]; cbn [andb]; [|reflexivity].
    destruct (Nat.leb_spec row c); [reflexivity|]. rewrite HZ by assumption. reflexivity. }
  assert (ER : forall r c, (r < n)%nat -> (c < m)%nat -> get (iR s') r c = if Nat.eqb r row then - get (iR s) row c else get (iR s) r c).
  { intros r c Hr Hc. unfold s', inv_oppose. cbn [iR]. rewrite get_tab by assumption.
    destruct (Nat.eqb_spec r row) as [->|]; reflexivity. }
  split; [|exact E]. destruct (invp_rowscale n L P sc (-1) row Hrow HI) as (P' & HI').
  exists (rowscale (-1) row L), P'. split.
  - intros r c Hr Hc. rewrite E, mmul_rowscale by assumption. unfold rowscale. rewrite <- !HL by assumption. destruct (Nat.eqb r row); ring.
  - intros r c Hr Hc. rewrite ER, mmul_rowscale by assumption. unfold rowscale. rewrite <- !HR by assumption. destruct (Nat.eqb r row); ring.
  - exact HI'.
Qed.
Lemma isub_ok s L P sc row i x : icore s L P sc -> (row < n)%nat -> (i < n)%nat -> i <> row ->
  (forall c, (c < row)%nat -> get (iL s) row c = 0) ->
  let s' := inv_subtract n m s row i x in
  (exists L' P' , icore s' L' P' sc) /\
  forall r c, (r < n)%nat -> (c < n)%nat -> get (iL s') r c = if Nat.eqb r i then get (iL s) i c - x * get (iL s) row c else get (iL s) r c.
Proof.
  intros [HL HR HI] Hrow Hi Hne HZ s'.
  assert (E : forall r c, (r < n)%nat -> (c < n)%nat -> get (iL s') r c = if Nat.eqb r i then get (iL s) i c - x * get (iL s) row c else get (iL s) r c).
  { intros r c Hr Hc. unfold s', inv_subtract. cbn [iL]. rewrite get_tab by assumption.
    destruct (Nat.eqb_spec r i) as [->|]; cbn [andb]; [|reflexivity].
    destruct (Nat.leb_spec row c); [ring|]. rewrite HZ by assumption. ring. }
  assert (ER : forall r c, (r < n)%nat -> (c < m)%nat -> get (iR s') r c = if Nat.eqb r i then get (iR s) i c - x * get (iR s) row c else get (iR s) r c).
  { intros r c Hr Hc. unfold s', inv_subtract. cbn [iR]. rewrite get_tab by assumption.
    destruct (Nat.eqb_spec r i) as [->|]; ring. }
  split; [|exact E]. destruct (invp_rowcomb n L P sc 1 (- x) row i Hrow Hi ltac:(auto) HI) as (P' & HI'). rewrite Z.mul_1_l in HI'.
  exists (rowcomb 1 (- x) row i L), P'. split.
  - intros r c Hr Hc. rewrite E, mmul_rowcomb by assumption. unfold rowcomb. rewrite <- !HL by assumption. destruct (Nat.eqb r i); ring.
  - intros r c Hr Hc. rewrite ER, mmul_rowcomb by assumption. unfold rowcomb. rewrite <- !HR by assumption. destruct (Nat.eqb r i); ring.
  - exact HI'.
Qed.

Lemma nth_col (f : nat -> Z) first k d : (k < n - first)%nat -> nth k (map f (seq first (n - first))) d = f (first + k)%nat.
Proof.
  intros H. rewrite (nth_indep _ d (f O)) by (rewrite map_length, seq_length; exact H).
  rewrite (map_nth f), seq_nth by exact H. reflexivity.
Qed.

Lemma euclid_rows_ok row : (row < n)%nat -> forall fuel s L P sc first,
  icore s L P sc -> idiag row s -> 0 < get (iL s) row row -> (row < first <= n)%nat ->
  (forall r, (row < r < first)%nat -> get (iL s) r row = 0) ->
  (Z.to_nat (get (iL s) row row) + (n - first) < fuel)%nat ->
  exists s' L' P', euclid_rows fuel n m s row first = Some s' /\ icore s' L' P' sc /\ idiag row s' /\
    0 < get (iL s') row row /\ forall r, (row < r < n)%nat -> get (iL s') r row = 0.
Proof.
  intros Hrow. induction fuel as [|fuel IH]; intros s L P sc first HC HD Hp Hf Hz Hfuel; [lia|].
  cbn [euclid_rows]. unfold row_first_non_zero.
  pose proof (first_non_zero_ok (map (fun r => get (iL s) r row) (seq first (n - first)))) as F.
  destruct (seq_first_non_zero _) as [off|].
  2:{ exists s, L, P. split; [reflexivity|]. split; [exact HC|]. split; [exact HD|]. split; [exact Hp|].
      intros r Hr. destruct (Nat.lt_ge_cases r first); [apply Hz; lia|].
      specialize (F (r - first)%nat). rewrite nth_col in F by lia. replace (first + (r - first))%nat with r in F by lia. exact F. }
  destruct F as (F1 & F2 & F3). rewrite map_length, seq_length in F1. rewrite nth_col in F2 by exact F1.
  set (f' := (first + off)%nat) in *. assert (Hf' : (row < f' < n)%nat) by lia.
  assert (Hz' : forall r, (row < r < f')%nat -> get (iL s) r row = 0).
  { intros r Hr. destruct (Nat.lt_ge_cases r first); [apply Hz; lia|].
    specialize (F3 (r - first)%nat ltac:(lia)). rewrite nth_col in F3 by lia. replace (first + (r - first))%nat with r in F3 by lia. exact F3. }
  set (q := fdiv_q (get (iL s) f' row) (get (iL s) row row)).
  assert (HZr : forall c, (c < row)%nat -> get (iL s) row c = 0) by (intros; apply HD; lia).
  destruct (isub_ok s L P sc row f' q HC Hrow ltac:(lia) ltac:(lia) HZr) as ((L1 & P1 & C1) & E1).
  set (s1 := inv_subtract n m s row f' q) in *.
  assert (Hpiv : get (iL s1) row row = get (iL s) row row).
  { rewrite E1 by lia. destruct (Nat.eqb_spec row f'); [lia|reflexivity]. }
  assert (Hrem : get (iL s1) f' row = get (iL s) f' row mod get (iL s) row row).
  { rewrite E1 by lia. rewrite Nat.eqb_refl. apply fdiv_q_mod. exact Hp. }
  assert (D1 : idiag row s1).
  { destruct HD as [DA DB]. split.
    - intros r c Hr Hc Hne. rewrite E1 by lia. destruct (Nat.eqb_spec r f') as [->|]; [|apply DA; assumption].
      rewrite (DA f' c), (DA row c) by lia. ring.
    - intros c Hc. rewrite E1 by lia. destruct (Nat.eqb_spec c f'); [lia|]. apply DB. exact Hc. }
  assert (Hz1 : forall r, (row < r < f')%nat -> get (iL s1) r row = 0).
  { intros r Hr. rewrite E1 by lia. destruct (Nat.eqb_spec r f'); [lia|]. apply Hz'. exact Hr. }
  pose proof (Z.mod_pos_bound (get (iL s) f' row) (get (iL s) row row) Hp) as Hb.
  destruct (Z.eqb_spec (get (iL s1) f' row) 0) as [E0|E0]; cbn [negb].
  - apply (IH s1 L1 P1 sc (S f') C1 D1); try lia.
    intros r Hr. destruct (Nat.eq_dec r f') as [->|]; [exact E0|]. apply Hz1. lia.
  - destruct (iexch_ok s1 L1 P1 sc row f' C1 Hrow ltac:(lia)) as ((L2 & P2 & C2) & E2).
    set (s2 := inv_exchange n m s1 row f') in *.
    assert (Hpiv2 : get (iL s2) row row = get (iL s1) f' row).
    { rewrite E2 by lia. unfold swp. rewrite Nat.eqb_refl. reflexivity. }
    apply (IH s2 L2 P2 sc f' C2); try lia.
    + destruct D1 as [DA DB]. split.
      * intros r c Hr Hc Hne. rewrite E2 by lia. unfold swp.
        destruct (Nat.eqb_spec r row); [apply DA; lia|]. destruct (Nat.eqb_spec r f'); apply DA; lia.
      * intros c Hc. rewrite E2 by lia. unfold swp. destruct (Nat.eqb_spec c row); [lia|]. destruct (Nat.eqb_spec c f'); [lia|]. apply DB. exact Hc.
    + intros r Hr. rewrite E2 by lia. unfold swp. destruct (Nat.eqb_spec r row); [lia|]. destruct (Nat.eqb_spec r f'); [lia|]. apply Hz1. exact Hr.
Qed.

(** rows from [row] on are zero below the diagonal *)
Lemma clear_row_ok row s L P sc i : (row < n)%nat -> (i < row)%nat -> icore s L P sc -> 0 <> sc -> idiag row s ->
  0 < get (iL s) row row ->
  let s' := clear_row n m row s i in
  exists L' P' sc', icore s' L' P' sc' /\ 0 <> sc' /\ idiag row s' /\ get (iL s') i row = 0 /\
    forall r, (r < n)%nat -> r <> i -> get (iL s') r row = get (iL s) r row.
Proof.
  intros Hrow Hi HC Hs HD Hp. unfold clear_row.
  destruct (Z.eqb_spec (get (iL s) i row) 0) as [E|E].
  { exists L, P, sc. auto. }
  destruct (divexact_gcd (get (iL s) row row) (get (iL s) i row) Hp) as (A1 & A2).
  set (g := Z.gcd (get (iL s) row row) (get (iL s) i row)) in *.
  set (a := divexact (get (iL s) row row) g) in *. set (b := divexact (get (iL s) i row) g) in *.
  set (s' := mkis _ _). destruct HD as [DA DB].
  assert (EL : forall r c, (r < n)%nat -> (c < n)%nat -> get (iL s') r c = rowcomb a (- b) row i (get (iL s)) r c).
  { intros r c Hr Hc. unfold s'. cbn [iL]. rewrite get_tab by assumption. unfold rowcomb.
    destruct (Nat.eqb_spec r i) as [->|]; cbn [andb]; [|reflexivity].
    destruct (Nat.leb_spec i c); [reflexivity|]. rewrite (DA i c), (DA row c) by lia. ring. }
  assert (ER : forall r c, (r < n)%nat -> (c < m)%nat -> get (iR s') r c = rowcomb a (- b) row i (get (iR s)) r c).
  { intros r c Hr Hc. unfold s'. cbn [iR]. rewrite get_tab by assumption. reflexivity. }
  destruct HC as [HL HR HI].
  destruct (invp_rowcomb n L P sc a (- b) row i Hrow ltac:(lia) ltac:(lia) HI) as (P' & HI').
  exists (rowcomb a (- b) row i L), P', (a * sc). split; [|split; [nia|split; [|split]]].
  - split; [| |exact HI'].
    + intros r c Hr Hc. rewrite EL, mmul_rowcomb by assumption. unfold rowcomb. rewrite <- !HL by lia. reflexivity.
    + intros r c Hr Hc. rewrite ER, mmul_rowcomb by assumption. unfold rowcomb. rewrite <- !HR by lia. reflexivity.
  - split.
    + intros r c Hr Hc Hne. rewrite EL by lia. unfold rowcomb. destruct (Nat.eqb_spec r i) as [->|]; [|apply DA; assumption].
      rewrite (DA i c), (DA row c) by lia. ring.
    + intros c Hc. rewrite EL by lia. unfold rowcomb. destruct (Nat.eqb_spec c i) as [->|]; [|apply DB; assumption].
      rewrite (DA row i) by lia. specialize (DB i Hc). nia.
  - rewrite EL by lia. unfold rowcomb. rewrite Nat.eqb_refl. lia.
  - intros r Hr Hne. rewrite EL by lia. unfold rowcomb. destruct (Nat.eqb_spec r i); [contradiction|reflexivity].
Qed.
Lemma clear_rows row : (row < n)%nat -> forall k s L P sc, (k <= row)%nat -> icore s L P sc -> 0 <> sc -> idiag row s ->
  0 < get (iL s) row row ->
  let s' := fold_left (clear_row n m row) (seq 0 k) s in
  exists L' P' sc', icore s' L' P' sc' /\ 0 <> sc' /\ idiag row s' /\ (forall i, (i < k)%nat -> get (iL s') i row = 0) /\
    forall r, (k <= r < n)%nat -> get (iL s') r row = get (iL s) r row.
Proof.
  intros Hrow. induction k as [|k IH]; intros s L P sc Hk HC Hs HD Hp.
  { exists L, P, sc. cbn. split; [exact HC|]. split; [exact Hs|]. split; [exact HD|]. split; [lia|auto]. }
  rewrite seq_S, fold_left_app. cbn [plus fold_left].
  destruct (IH s L P sc ltac:(lia) HC Hs HD Hp) as (L1 & P1 & sc1 & C1 & S1 & D1 & Z1 & K1).
  set (s1 := fold_left (clear_row n m row) (seq 0 k) s) in *.
  destruct (clear_row_ok row s1 L1 P1 sc1 k Hrow ltac:(lia) C1 S1 D1) as (L2 & P2 & sc2 & C2 & S2 & D2 & Z2 & K2).
  { rewrite K1 by lia. exact Hp. }
  exists L2, P2, sc2. split; [exact C2|]. split; [exact S2|]. split; [exact D2|]. split.
  - intros i Hi. destruct (Nat.eq_dec i k) as [->|]; [exact Z2|]. rewrite K2 by lia. apply Z1. lia.
  - intros c Hc. rewrite K2 by lia. apply K1. lia.
Qed.

Definition singular : Prop :=
  exists v, (exists r, (r < n)%nat /\ v r <> 0) /\ forall r, (r < n)%nat -> mvec n A v r = 0.

Lemma inverse_loop_ok : forall k row s L P sc, (row + k = n)%nat -> icore s L P sc -> 0 <> sc -> idiag row s ->
  match inverse_product_loop n m (seq row k) s with
  | Ok s' => exists L' P' sc', icore s' L' P' sc' /\ 0 <> sc' /\ idiag n s'
  | Null => singular
  | _ => False
  end.
Proof.
  induction k as [|k IH]; intros row s L P sc Hn HC Hs HD; cbn [seq inverse_product_loop].
  { assert (row = n) by lia. subst row. exists L, P, sc. auto. }
  assert (Hrow : (row < n)%nat) by lia.
  unfold row_abs_min_non_zero. pose proof (abs_min_ok (map (fun r => get (iL s) r row) (seq row (n - row)))) as F.
  destruct (seq_abs_min_non_zero _) as [p|].
  - destruct F as (F1 & F2 & _). rewrite map_length, seq_length in F1. rewrite nth_col in F2 by exact F1.
    set (f := (p + row)%nat). assert (Hf : (row <= f < n)%nat) by (unfold f; lia).
    assert (Hfz : get (iL s) f row <> 0) by (unfold f; rewrite Nat.add_comm; exact F2).
    set (s1 := if negb (Nat.eqb f row) then inv_exchange n m s f row else s).
    assert (S1 : exists L1 P1, icore s1 L1 P1 sc /\ idiag row s1 /\ get (iL s1) row row <> 0).
    { unfold s1. destruct (Nat.eqb_spec f row) as [E|E]; cbn [negb].
      - exists L, P. split; [exact HC|]. split; [exact HD|]. rewrite <- E at 1. exact Hfz.
      - destruct (iexch_ok s L P sc f row HC ltac:(lia) Hrow) as ((L2 & P2 & C2) & E2).
        exists L2, P2. split; [exact C2|]. destruct HD as [DA DB]. split; [split|].
        + intros r c Hr Hc Hne. rewrite E2 by lia. unfold swp.
          destruct (Nat.eqb_spec r f); [apply DA; lia|]. destruct (Nat.eqb_spec r row); apply DA; lia.
        + intros c Hc. rewrite E2 by lia. unfold swp. destruct (Nat.eqb_spec c f); [lia|]. destruct (Nat.eqb_spec c row); [lia|]. apply DB. exact Hc.
        + rewrite E2 by lia. unfold swp. destruct (Nat.eqb_spec row f); [lia|]. rewrite Nat.eqb_refl. exact Hfz. }
    destruct S1 as (L1 & P1 & C1 & D1 & N1).
    set (s2 := if get (iL s1) row row <? 0 then inv_oppose n m s1 row else s1).
    assert (S2 : exists L2 P2 sc2, icore s2 L2 P2 sc2 /\ 0 <> sc2 /\ idiag row s2 /\ 0 < get (iL s2) row row).
    { unfold s2. destruct (Z.ltb_spec (get (iL s1) row row) 0) as [E|E].
      - destruct (ioppose_ok s1 L1 P1 sc row C1 Hrow ltac:(intros; apply D1; lia)) as ((L2 & P2 & C2) & E2).
        exists L2, P2, (-1 * sc). split; [exact C2|]. split; [lia|]. destruct D1 as [DA DB]. split; [split|].
        + intros r c Hr Hc Hne. rewrite E2 by lia. destruct (Nat.eqb_spec r row); [rewrite DA by lia; reflexivity|apply DA; lia].
        + intros c Hc. rewrite E2 by lia. destruct (Nat.eqb_spec c row); [lia|apply DB; lia].
        + rewrite E2 by lia. rewrite Nat.eqb_refl. lia.
      - exists L1, P1, sc. split; [exact C1|]. split; [exact Hs|]. split; [exact D1|]. lia. }
    destruct S2 as (L2 & P2 & sc2 & C2 & Hs2 & D2 & N2).
    destruct (euclid_rows_ok row Hrow (euclid_fuel n (get (iL s2) row row)) s2 L2 P2 sc2 (S row) C2 D2 N2 ltac:(lia)
      ltac:(intros; lia) ltac:(unfold euclid_fuel; lia)) as (s3 & L3 & P3 & E3 & C3 & D3 & N3 & Z3).
    rewrite E3.
    destruct (clear_rows row Hrow row s3 L3 P3 sc2 (Nat.le_refl _) C3 Hs2 D3 N3) as (L4 & P4 & sc4 & C4 & Hs4 & D4 & Z4 & K4).
    apply (IH (S row) _ L4 P4 sc4); [lia|exact C4|exact Hs4|]. destruct D4 as [DA DB]. split.
    + intros r c Hr Hc Hne. destruct (Nat.eq_dec c row) as [->|]; [|apply DA; lia].
      destruct (Nat.lt_ge_cases r row); [apply Z4; assumption|]. rewrite K4 by lia. apply Z3. lia.
    + intros c Hc. destruct (Nat.eq_dec c row) as [->|]; [|apply DB; lia]. rewrite K4 by lia. exact N3.
  - assert (F' : forall r, (row <= r < n)%nat -> get (iL s) r row = 0).
    { intros r Hr. specialize (F (r - row)%nat). rewrite nth_col in F by lia. replace (row + (r - row))%nat with r in F by lia. exact F. }
    destruct HD as [DA DB].
    destruct (common_multiple (fun i => get (iL s) i i) (fun i => - get (iL s) i row) row) as (q & w & Hq & Hw).
    { intros i Hi. specialize (DB i Hi). lia. }
    set (v := fun r => if Nat.eqb r row then q else if Nat.ltb r row then w r else 0).
    exists v. split.
    { exists row. split; [exact Hrow|]. unfold v. rewrite Nat.eqb_refl. exact Hq. }
    assert (V : forall r, (r < n)%nat -> mvec n (get (iL s)) v r = 0).
    { intros r Hr. unfold mvec. destruct (Nat.lt_ge_cases r row) as [Lr|Lr].
      - rewrite (sumn_diff2 n r row _ (fun _ => 0)); try lia.
        + rewrite sumn_0 by reflexivity. unfold v. rewrite Nat.eqb_refl. destruct (Nat.eqb_spec r row); [lia|].
          destruct (Nat.ltb_spec r row); [|lia]. rewrite (Z.mul_comm _ (w r)), Hw by assumption. ring.
        + intros c Hc Hn1 Hn2. unfold v. destruct (Nat.eqb_spec c row); [lia|]. destruct (Nat.ltb_spec c row); [|ring].
          rewrite DA by lia. ring.
      - apply sumn_0. intros c Hc. unfold v. destruct (Nat.eqb_spec c row); [subst; rewrite F' by lia; ring|].
        destruct (Nat.ltb_spec c row); [|ring]. rewrite DA by lia. ring. }
    intros r Hr. destruct HC as [HL HR HI].
    pose proof (invp_vec n L P sc (mvec n A v) HI r Hr) as X.
    rewrite (mvec_ext n P P _ (fun _ => 0)) in X; [|reflexivity|].
    + unfold mvec at 1 in X. rewrite sumn_0 in X by (intros; ring). symmetry in X. apply Z.mul_eq_0 in X. destruct X; [congruence|assumption].
    + intros k' Hk'. rewrite <- mvec_mmul, <- (V k' Hk'). apply mvec_ext; [|reflexivity]. intros. symmetry. apply HL; assumption.
Qed.
End InverseProduct.

Lemma scale_rows n m (D : nat -> Z) (a : Z) R : forall k, (k <= n)%nat -> (forall r, (r < k)%nat -> D r <> 0 /\ (D r | a)) ->
  let R' := fold_left (fun R r => let x := divexact a (D r) in
     if x =? 1 then R else tab n m (fun i j => if Nat.eqb i r then get R i j * x else get R i j)) (seq 0 k) R in
  forall i j, (i < n)%nat -> (j < m)%nat -> get R' i j = if Nat.ltb i k then (a / D i) * get R i j else get R i j.
Proof.
  induction k as [|k IH]; intros Hk HD; [cbn; auto|].
  rewrite seq_S, fold_left_app. cbn [plus fold_left].
  specialize (IH ltac:(lia) ltac:(auto)). cbv zeta in IH. set (R1 := fold_left _ (seq 0 k) R) in *.
  intros i j Hi Hj.
  assert (G : (if Nat.ltb i (S k) then a / D i * get R i j else get R i j) = if Nat.eqb i k then (a / D k) * get R1 i j else get R1 i j).
  { rewrite IH by assumption. destruct (Nat.eqb_spec i k) as [->|].
    - destruct (Nat.ltb_spec k (S k)); [|lia]. destruct (Nat.ltb_spec k k); [lia|]. reflexivity.
    - destruct (Nat.ltb_spec i (S k)), (Nat.ltb_spec i k); try lia; reflexivity. }
  rewrite G. unfold divexact. destruct (Z.eqb_spec (a / D k) 1) as [->|].
  - destruct (Nat.eqb i k); ring.
  - rewrite get_tab by assumption. destruct (Nat.eqb i k); ring.
Qed.

Lemma inverse_product_ok n m L R : is_mat n n L -> is_mat n m R ->
  match inverse_product n m L R with
  | Ok X => exists a, 0 < a /\ (forall i j, (i < n)%nat -> (j < m)%nat -> times n (elt L) (elt X) i j = a * elt R i j) /\
      forall v, (forall r, (r < n)%nat -> apply n (elt L) v r = 0) -> forall r, (r < n)%nat -> v r = 0
  | Null => exists v, (exists r, (r < n)%nat /\ v r <> 0) /\ forall r, (r < n)%nat -> apply n (elt L) v r = 0
  | _ => False
  end.
Proof.
  intros WL WR. unfold inverse_product. destruct (Nat.eqb_spec n 0) as [->|Hn].
  { exists 1. split; [lia|]. split; intros; lia. }
  assert (C0 : icore n m (get L) (get R) (mkis L R) Id Id 1).
  { split; [| |apply invp_Id]; intros r c Hr Hc; rewrite mmul_Id_l by exact Hr; reflexivity. }
  pose proof (inverse_loop_ok n m (get L) (get R) n 0 (mkis L R) Id Id 1 ltac:(lia) C0 ltac:(lia)) as F.
  destruct (inverse_product_loop n m (seq 0 n) (mkis L R)) as [s| | |].
  2:{ apply F. split; intros; lia. }
  2:{ apply F. split; intros; lia. }
  2:{ apply F. split; intros; lia. }
  destruct F as (G & P & sc & [HL HR HI] & Hs & [DA DB]); [split; intros; lia|].
  destruct (lcm_fold (fun r => get (iL s) r r) (seq 1 (n - 1)) (get (iL s) 0 0)) as (A1 & A2 & A3).
  { intros r Hr. apply in_seq in Hr. specialize (DB r ltac:(lia)). lia. }
  { specialize (DB O ltac:(lia)). lia. }
  { right. apply DB. lia. }
  set (a := fold_left _ _ _) in *. destruct (Z.eqb_spec a 0); [lia|].
  assert (DV : forall r, (r < n)%nat -> get (iL s) r r <> 0 /\ (get (iL s) r r | a)).
  { intros r Hr. split; [specialize (DB r Hr); lia|]. destruct r as [|r]; [exact A2|]. apply (A3 (S r)). apply in_seq. lia. }
  pose proof (scale_rows n m (fun r => get (iL s) r r) a (iR s) n (Nat.le_refl _) DV) as E'. cbv zeta in E'.
  set (X := fold_left _ (seq 0 n) (iR s)) in *.
  (* E G is the inverse *)
  set (EG := fun i j => (a / get (iL s) i i) * G i j).
  assert (XE : forall i j, (i < n)%nat -> (j < m)%nat -> get X i j = mmul n EG (get R) i j).
  { intros i j Hi Hj. rewrite E' by assumption. destruct (Nat.ltb_spec i n); [|lia]. rewrite HR by assumption.
    unfold mmul, EG. rewrite <- sumn_mul. apply sumn_ext. intros. ring. }
  assert (EGA : forall i j, (i < n)%nat -> (j < n)%nat -> mmul n EG (get L) i j = a * Id i j).
  { intros i j Hi Hj. transitivity (a / get (iL s) i i * get (iL s) i j).
    - rewrite (HL i j) by assumption. unfold mmul, EG. rewrite <- sumn_mul. apply sumn_ext. intros. ring.
    - unfold Id. destruct (Nat.eqb_spec i j) as [->|]; [|rewrite (DA i j) by assumption; ring].
      destruct (DV j Hj) as (N & (q & ->)). rewrite Z.div_mul by exact N. ring. }
  (* E G is invertible *)
  assert (IEG : exists P' sc', sc' <> 0 /\ invp n EG P' sc').
  { assert (Q : forall k, (k <= n)%nat -> exists P' sc', sc' <> 0 /\ invp n (fun i j => if Nat.ltb i k then EG i j else G i j) P' sc').
    { induction k as [|k IHk]; intros Hk.
      - exists P, sc. split; [auto|]. exact HI.
      - destruct (IHk ltac:(lia)) as (P1 & sc1 & S1 & I1).
        destruct (invp_rowscale n _ _ _ (a / get (iL s) k k) k ltac:(lia) I1) as (P2 & I2).
        exists P2, (a / get (iL s) k k * sc1). split.
        + destruct (DV k ltac:(lia)) as (N & (q & Eq)). rewrite Eq, Z.div_mul by exact N. nia.
        + apply (invp_ext n _ P2) with (3 := I2); [|reflexivity]. intros i j Hi Hj. unfold rowscale.
          destruct (Nat.eqb_spec i k) as [->|].
          * destruct (Nat.ltb_spec k k); [lia|]. destruct (Nat.ltb_spec k (S k)); [reflexivity|lia].
          * destruct (Nat.ltb_spec i k), (Nat.ltb_spec i (S k)); try lia; reflexivity. }
    destruct (Q n (Nat.le_refl _)) as (P' & sc' & S' & I'). exists P', sc'. split; [exact S'|].
    apply (invp_ext n _ P') with (3 := I'); [|reflexivity]. intros i j Hi Hj. destruct (Nat.ltb_spec i n); [reflexivity|lia]. }
  destruct IEG as (P' & sc' & S' & I').
  exists a. split; [lia|]. split.
  2:{ intros v Hv r Hr. change (forall r, (r < n)%nat -> mvec n (get L) v r = 0) in Hv.
      assert (Q : mvec n (mmul n EG (get L)) v r = a * v r).
      { rewrite (mvec_ext n _ (fun i j => a * Id i j) v v); [|intros; apply EGA; assumption|reflexivity]. rewrite mvec_scale, mvec_Id by exact Hr. reflexivity. }
      rewrite mvec_mmul in Q. rewrite (mvec_ext n EG EG _ (fun _ => 0)) in Q; [|reflexivity|exact Hv].
      unfold mvec in Q. rewrite sumn_0 in Q by (intros; ring). nia. }
  intros i j Hi Hj.
  change (mmul n (get L) (get X) i j = a * get R i j).
  rewrite (mmul_ext n (get L) (get L) (get X) (mmul n EG (get R))) by (intros; auto).
  rewrite <- mmul_assoc. rewrite (mmul_ext n _ (fun i j => a * Id i j) _ (get R)); [|intros k Hk|reflexivity].
  - rewrite mmul_scale_l, mmul_Id_l by exact Hi. reflexivity.
  - apply (left_right n EG P' sc' (get L) a S' I' EGA); assumption.
Qed.
