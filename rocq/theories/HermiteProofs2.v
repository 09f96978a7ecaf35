(** Consequences of the Hermite normal form: rank, kernel, completion. *)
From Coq Require Import ZArith List Bool Lia Arith ZifyBool.
From Verif Require Import SeqModel SeqSpec SeqProofs MatModel MatSpec MatTheory HermiteProofs.
Import ListNotations.
Open Scope Z_scope.

Lemma elt_get M r c : elt M r c = get M r c. Proof. reflexivity. Qed.

Lemma left_hermite_ok nr nc M neg : is_mat nr nc M ->
  exists s ps, left_hermite nr nc M neg = Some s /\
    core nr nc (get M) s (get (hQ s)) 1 /\ is_hermite nr nc neg (get (hM s)) ps.
Proof.
  intros W. unfold left_hermite. set (s0 := mkh M (mat_identity nc) (mat_identity nc)).
  assert (C0 : core nr nc (get M) s0 (get (hQ s0)) 1).
  { split.
    - exact W.
    - intros r c Hr Hc. cbn [hM hU s0]. rewrite (mmul_ext nc _ (get M) _ Id) by (intros; try apply get_identity; auto).
      rewrite mmul_Id_r by exact Hc. reflexivity.
    - apply (invp_ext nc Id Id); [| |apply invp_Id]; intros; symmetry; apply get_identity; assumption. }
  destruct (Nat.eqb_spec nc 0) as [->|Hnc].
  - exists s0, []. split; [reflexivity|]. split; [exact C0|]. unfold is_hermite. cbn [length]. repeat split; intros; lia.
  - destruct (hermite_loop_ok nr nc (get M) neg nr 0 s0 (get (hQ s0)) [] ltac:(lia) C0) as (s & P & ps & E & C & Q & Z & Sh).
    + intros i j _ _. reflexivity.
    + intros r c Hr. lia.
    + unfold shape. cbn [length]. repeat split; intros; lia.
    + exists s, ps. split; [exact E|]. split.
      * destruct C as [A B D]. split; auto. apply (invp_ext nc (get (hU s)) P); auto. intros. symmetry. apply Q; assumption.
      * destruct Sh as (A & B & D & F). split; [exact A|]. split; [exact B|]. split; [exact D|]. split; [|exact Z].
        exact F.
Qed.

Section Echelon.
Variables (nr nc : nat) (neg : bool) (H : nat -> nat -> Z) (ps : list nat).
Hypothesis HH : is_hermite nr nc neg H ps.

Lemma ech_right c i : (c < length ps)%nat -> (c < i < nc)%nat -> H (nth c ps O) i = 0.
Proof.
  intros Hc Hi. destruct HH as (A & B & C & D & E).
  destruct (Nat.lt_ge_cases i (length ps)) as [L|L].
  - apply (D i L). apply C. lia.
  - apply E; [apply B; exact Hc|lia].
Qed.
Lemma ech_inj y : (forall i, (i < nr)%nat -> mvec (length ps) H y i = 0) -> forall j, (j < length ps)%nat -> y j = 0.
Proof.
  intros Hy j. induction j as [j IH] using (well_founded_induction lt_wf). intros Hj.
  destruct HH as (A & B & C & D & E).
  specialize (Hy (nth j ps O) (B j Hj)). unfold mvec in Hy. rewrite (sumn_one _ j) in Hy; [|exact Hj|].
  - destruct (D j Hj) as (D1 & _). nia.
  - intros k Hk Hkj. destruct (Nat.lt_ge_cases k j); [rewrite IH by lia; ring|]. rewrite ech_right by lia. ring.
Qed.
Lemma ech_trunc z i : (i < nr)%nat -> mvec nc H z i = mvec (length ps) H z i.
Proof.
  intros Hi. destruct HH as (A & B & C & D & E). unfold mvec.
  replace nc with (length ps + (nc - length ps))%nat by lia. rewrite sumn_split.
  rewrite (sumn_0 (nc - length ps)); [ring|]. intros k Hk. rewrite E by lia. ring.
Qed.
Lemma first_nz_spec n_row col Hm : forall fuel row p, (row <= p)%nat -> (p - row <= fuel)%nat -> (p <= n_row)%nat ->
  (forall r, (row <= r < p)%nat -> get Hm r col = 0) -> (p = n_row \/ get Hm p col <> 0) ->
  first_nz_row fuel n_row Hm row col = p.
Proof.
  induction fuel as [|fuel IH]; intros row p H1 H2 H3 H4 H5; cbn [first_nz_row]; [lia|].
  destruct (Nat.ltb_spec row n_row); cbn [andb]; [|lia].
  destruct (Z.eqb_spec (get Hm row col) 0).
  - destruct (Nat.eq_dec row p); [subst; lia|]. apply IH; try lia; auto. intros; apply H4; lia.
  - destruct (Nat.eq_dec row p); [assumption|]. rewrite H4 in n by lia. lia.
Qed.
End Echelon.

Lemma first_zero_col_ok nr nc neg Hm ps : is_hermite nr nc neg (get Hm) ps -> hermite_first_zero_col nc Hm 0 nr = length ps.
Proof.
  intros HH. destruct HH as (A & B & C & D & E). unfold hermite_first_zero_col. rewrite Nat.sub_0_r.
  assert (G : forall m c row, (c + m = nc)%nat -> (c <= length ps)%nat -> (row <= nr)%nat ->
      (c < length ps -> row <= nth c ps O)%nat -> zero_col_loop (seq c m) nr nc Hm row = length ps).
  { induction m as [|m IH]; intros c row Hm' Hc Hrow Hr; cbn [seq zero_col_loop]; [lia|].
    destruct (Nat.lt_ge_cases c (length ps)) as [L|L].
    - destruct (D c L) as (D1 & D2 & _). pose proof (B c L). specialize (Hr L).
      rewrite (first_nz_spec nr c Hm nr row (nth c ps O)); try lia.
      2:{ intros; apply D2; lia. }
      destruct (Nat.eqb_spec (nth c ps O) nr); [lia|]. apply IH; try lia.
      intros L2. specialize (C c (S c) ltac:(lia)). lia.
    - rewrite (first_nz_spec nr c Hm nr row nr); try lia.
      + rewrite Nat.eqb_refl. lia.
      + intros r Hr'. apply E; lia. }
  apply G; lia.
Qed.

(** [M = H Q] *)
Lemma core_HQ nr nc M s : core nr nc M s (get (hQ s)) 1 ->
  forall x i, (i < nr)%nat -> mvec nc M x i = mvec nc (get (hM s)) (mvec nc (get (hQ s)) x) i.
Proof.
  intros [W HM [HI HI2]] x i Hi.
  rewrite (mvec_ext nc (get (hM s)) (mmul nc M (get (hU s))) (mvec nc (get (hQ s)) x) (mvec nc (get (hQ s)) x)); auto.
  rewrite mvec_mmul. apply mvec_ext; [reflexivity|]. intros k Hk.
  rewrite <- mvec_mmul. rewrite (mvec_ext nc _ (fun i j => 1 * Id i j) x x); auto.
  rewrite mvec_scale, mvec_Id by exact Hk. ring.
Qed.
Lemma core_HU nr nc M s P sc : core nr nc M s P sc ->
  forall z i, (i < nr)%nat -> mvec nc (get (hM s)) z i = mvec nc M (mvec nc (get (hU s)) z) i.
Proof.
  intros [W HM _] z i Hi. rewrite <- mvec_mmul. apply mvec_ext; auto.
Qed.

Lemma rank_ok nr nc M : is_mat nr nc M -> exists k, mat_rank nr nc M = Some k /\ has_rank nr nc (elt M) k.
Proof.
  intros W. destruct (left_hermite_ok nr nc M false W) as (s & ps & E & C & HH).
  unfold mat_rank. rewrite E. rewrite (first_zero_col_ok nr nc false _ ps HH). exists (length ps). split; [reflexivity|].
  exists (get (hM s)). split; [|split].
  - intros x. exists (mvec nc (get (hQ s)) x). intros i Hi.
    change (mvec nc (get M) x i = mvec (length ps) (get (hM s)) (mvec nc (get (hQ s)) x) i).
    rewrite (core_HQ nr nc _ s C x i Hi). apply (ech_trunc nr nc false _ ps HH). exact Hi.
  - intros y. exists (mvec nc (get (hU s)) (fun i => if Nat.ltb i (length ps) then y i else 0)). intros i Hi.
    change (mvec nc (get M) (mvec nc (get (hU s)) (fun i => if Nat.ltb i (length ps) then y i else 0)) i = mvec (length ps) (get (hM s)) y i).
    rewrite <- (core_HU nr nc _ s _ 1 C) by exact Hi. rewrite (ech_trunc nr nc false _ ps HH) by exact Hi.
    apply mvec_ext; [reflexivity|]. intros k Hk. destruct (Nat.ltb_spec k (length ps)); [reflexivity|lia].
  - intros y Hy j Hj. apply (ech_inj nr nc false _ ps HH y); assumption.
Qed.

Lemma mvec_shift n k A z i : (k <= n)%nat -> (forall j, (j < k)%nat -> z j = 0) ->
  mvec n A z i = mvec (n - k) (fun r c => A r (k + c)%nat) (fun c => z (k + c)%nat) i.
Proof.
  intros Hk Hz. unfold mvec. replace n with (k + (n - k))%nat at 1 by lia. rewrite sumn_split.
  rewrite (sumn_0 k); [ring|]. intros j Hj. rewrite Hz by exact Hj. ring.
Qed.

Lemma kernel_ok nr nc M : is_mat nr nc M ->
  exists k K, mat_right_kernel nr nc M = Some (k, K) /\ kernel_basis nr nc (elt M) k (elt K).
Proof.
  intros W. destruct (left_hermite_ok nr nc M false W) as (s & ps & E & C & HH).
  unfold mat_right_kernel. rewrite E. rewrite (first_zero_col_ok nr nc false _ ps HH).
  set (rk := length ps). assert (Hrk : (rk <= nc)%nat) by (apply HH).
  set (K := mat_sub (hU s) 0 nc rk (nc - rk)). exists (nc - rk)%nat, K. split; [reflexivity|].
  assert (EK : forall i j, (i < nc)%nat -> (j < nc - rk)%nat -> get K i j = get (hU s) i (rk + j)).
  { intros i j Hi Hj. unfold K, mat_sub. rewrite get_tab by assumption. reflexivity. }
  set (pad := fun (y : nat -> Z) i => if Nat.ltb i rk then 0 else y (i - rk)%nat).
  assert (EP : forall y i, (i < nc)%nat -> mvec nc (get (hU s)) (pad y) i = mvec (nc - rk) (get K) y i).
  { intros y i Hi. rewrite (mvec_shift nc rk); auto.
    - apply mvec_ext; [intros; symmetry; apply EK; assumption|]. intros k Hk. unfold pad.
      destruct (Nat.ltb_spec (rk + k) rk); [lia|]. f_equal. lia.
    - intros j Hj. unfold pad. destruct (Nat.ltb_spec j rk); [reflexivity|lia]. }
  assert (HU : forall y i, (i < nr)%nat -> mvec nc (get M) (mvec (nc - rk) (get K) y) i = 0).
  { intros y i Hi. rewrite (mvec_ext nc (get M) (get M) _ (mvec nc (get (hU s)) (pad y))); [|reflexivity|intros; symmetry; apply EP; assumption].
    rewrite <- (core_HU nr nc _ s _ 1 C) by exact Hi. rewrite (ech_trunc nr nc false _ ps HH) by exact Hi.
    apply sumn_0. intros k Hk. unfold pad. destruct (Nat.ltb_spec k rk); [ring|unfold rk in *; lia]. }
  split; [exact HU|]. split.
  - intros x Hx. set (z := mvec nc (get (hQ s)) x).
    assert (Hz : forall j, (j < rk)%nat -> z j = 0).
    { apply (ech_inj nr nc false _ ps HH z). intros i Hi. rewrite <- (ech_trunc nr nc false _ ps HH z i Hi).
      unfold z. rewrite <- (core_HQ nr nc _ s C x i Hi). exact (Hx i Hi). }
    exists (fun c => z (rk + c)%nat). intros i Hi.
    change (x i = mvec (nc - rk) (get K) (fun c => z (rk + c)%nat) i).
    rewrite <- EP by exact Hi. rewrite (mvec_ext nc _ (get (hU s)) _ z); [|reflexivity|].
    + unfold z. rewrite (invp_vec nc (get (hQ s)) (get (hU s)) 1 x); [ring| |exact Hi]. apply invp_sym. apply C.
    + intros k Hk. unfold pad. destruct (Nat.ltb_spec k rk); [rewrite Hz by assumption; reflexivity|f_equal; lia].
  - intros y Hy j Hj.
    assert (Hp : pad y (rk + j)%nat = 0).
    { pose proof (invp_vec nc (get (hU s)) (get (hQ s)) 1 (pad y) (c_inv _ _ _ _ _ _ C) (rk + j)%nat ltac:(lia)) as G.
      rewrite (mvec_ext nc (get (hQ s)) (get (hQ s)) _ (fun _ => 0)) in G; [|reflexivity|].
      - unfold mvec in G. rewrite sumn_0 in G by (intros; ring). lia.
      - intros k Hk. rewrite EP by exact Hk. apply Hy. exact Hk. }
    unfold pad in Hp. destruct (Nat.ltb_spec (rk + j) rk); [lia|]. replace (rk + j - rk)%nat with j in Hp by lia. exact Hp.
Qed.

(** ** isl_mat_unimodular_complete *)
Lemma firstn_is_mat n M row : (row <= n)%nat -> is_mat n n M -> is_mat row n (firstn row M).
Proof.
  intros Hr [A B]. split; [rewrite firstn_length; lia|]. intros r Hrr.
  rewrite <- (B r ltac:(lia)). f_equal. rewrite <- (firstn_skipn row M) at 2. rewrite app_nth1; [reflexivity|rewrite firstn_length; lia].
Qed.
Lemma get_firstn M row r c : (r < row)%nat -> (row <= length M)%nat -> get (firstn row M) r c = get M r c.
Proof.
  intros Hr HL. unfold get. f_equal. rewrite <- (firstn_skipn row M) at 2. rewrite app_nth1; [reflexivity|rewrite firstn_length; lia].
Qed.

Lemma ech_diag nr nc neg H ps k : is_hermite nr nc neg H ps -> (k <= nr)%nat -> (k <= nc)%nat ->
  (forall r, (r < k)%nat -> H r r <> 0) -> (k <= length ps)%nat /\ forall r, (r < k)%nat -> nth r ps O = r.
Proof.
  intros (A & B & C & D & E) Hk Hkc HD. induction k as [|k IH]; [split; lia|].
  destruct (IH ltac:(lia) ltac:(lia) ltac:(auto)) as (I1 & I2).
  assert (L : (k < length ps)%nat).
  { destruct (Nat.lt_ge_cases k (length ps)); [assumption|]. exfalso. apply (HD k ltac:(lia)). apply E; lia. }
  split; [lia|]. intros r Hr. destruct (Nat.eq_dec r k) as [->|]; [|apply I2; lia].
  assert (G1 : (k <= nth k ps O)%nat).
  { destruct k as [|k']; [lia|]. specialize (C k' (S k') ltac:(lia)). rewrite (I2 k') in C by lia. lia. }
  destruct (Nat.eq_dec (nth k ps O) k); [assumption|]. exfalso. apply (HD k ltac:(lia)).
  destruct (D k L) as (_ & D2 & _). apply D2. lia.
Qed.

Lemma complete_ok n M row R : is_mat n n M -> (row <= n)%nat -> unimodular_complete n M row = Ok R ->
  (forall r c, (r < row)%nat -> (c < n)%nat -> elt R r c = elt M r c) /\ exists U, inverses n U (elt R).
Proof.
  intros W Hrow. unfold unimodular_complete.
  destruct (left_hermite_ok row n (firstn row M) false (firstn_is_mat n M row Hrow W)) as (s & ps & E & C & HH). rewrite E.
  destruct (forallb (fun r => get (hM s) r r =? 1) (seq 0 row)) eqn:F; [|discriminate]. intros [= <-].
  rewrite forallb_forall in F.
  assert (F' : forall r, (r < row)%nat -> get (hM s) r r = 1). { intros r Hr. apply Z.eqb_eq. apply (F r). apply in_seq. lia. }
  clear F.
  destruct (ech_diag row n false _ ps row HH (Nat.le_refl _) Hrow) as (HL & HP). { intros r Hr. rewrite F' by exact Hr. lia. }
  assert (HI : forall r c, (r < row)%nat -> (c < n)%nat -> get (hM s) r c = Id r c).
  { intros r c Hr Hc. unfold Id. destruct (Nat.eqb_spec r c) as [->|Hne]; [apply F'; exact Hr|].
    destruct HH as (A & B & CC & D & EE). destruct (D r ltac:(lia)) as (_ & _ & D3). rewrite HP in D3 by exact Hr.
    destruct (Nat.lt_ge_cases c r) as [L|L].
    - specialize (D3 c L). cbn in D3. rewrite (F' r Hr) in D3. lia.
    - pose proof (ech_right row n false (get (hM s)) ps (conj A (conj B (conj CC (conj D EE)))) r c ltac:(lia) ltac:(lia)) as G.
      rewrite HP in G by exact Hr. exact G. }
  (* the first rows of M are those of Q *)
  assert (HQ : forall r c, (r < row)%nat -> (c < n)%nat -> get M r c = get (hQ s) r c).
  { intros r c Hr Hc. rewrite <- (get_firstn M row r c Hr) by (destruct W; lia).
    pose proof (core_HQ row n _ s C (fun k => Id k c) r Hr) as G.
    assert (G1 : mvec n (get (firstn row M)) (fun k => Id k c) r = get (firstn row M) r c) by exact (mmul_Id_r n _ r c Hc).
    rewrite G1 in G. rewrite G. rewrite (mvec_ext n _ Id _ (mvec n (get (hQ s)) (fun k => Id k c))); auto.
    rewrite mvec_Id by lia. exact (mmul_Id_r n _ r c Hc). }
  split.
  - intros r c Hr Hc. unfold elt. change (get (tab n n (fun r c => if Nat.ltb r row then get M r c else get (hQ s) r c)) r c = get M r c).
    rewrite get_tab by lia. destruct (Nat.ltb_spec r row); [reflexivity|lia].
  - exists (get (hU s)).
    assert (I' : invp n (get (hU s)) (get (tab n n (fun r c => if Nat.ltb r row then get M r c else get (hQ s) r c))) 1).
    { apply (invp_ext n (get (hU s)) (get (hQ s))); [reflexivity| |apply C]. intros i j Hi Hj. rewrite get_tab by assumption.
      destruct (Nat.ltb_spec i row); [|reflexivity]. symmetry. apply HQ; assumption. }
    destruct I' as [I1 I2]. split; intros i j Hi Hj.
    + transitivity (1 * Id i j); [exact (I1 i j Hi Hj)|]. rewrite Z.mul_1_l. reflexivity.
    + transitivity (1 * Id i j); [exact (I2 i j Hi Hj)|]. rewrite Z.mul_1_l. reflexivity.
Qed.

(** a lattice that contains all unit vectors has unit pivots *)
Lemma ech_full nr nc neg H ps : is_hermite nr nc neg H ps ->
  (forall r, (r < nr)%nat -> exists z, forall i, (i < nr)%nat -> mvec nc H z i = Id i r) ->
  forall k, (k <= nr)%nat -> (k <= length ps)%nat /\ forall r, (r < k)%nat -> nth r ps O = r /\ H r r = 1.
Proof.
  intros HH HF. pose proof HH as (A & B & C & D & E). induction k as [|k IH]; intros Hk; [split; lia|].
  destruct (IH ltac:(lia)) as (I1 & I2). destruct (HF k ltac:(lia)) as (z & Hz).
  assert (Z0 : forall i, (i < k)%nat -> z i = 0).
  { intros i. induction i as [i IHi] using (well_founded_induction lt_wf). intros Hi.
    specialize (Hz i ltac:(lia)). unfold mvec in Hz. destruct (I2 i Hi) as (P1 & P2).
    rewrite (sumn_one nc i) in Hz; [|lia|].
    - rewrite P2 in Hz. unfold Id in Hz. destruct (Nat.eqb_spec i k); lia.
    - intros j Hj Hne. destruct (Nat.lt_ge_cases j i); [rewrite IHi by lia; ring|].
      pose proof (ech_right nr nc neg H ps HH i j ltac:(lia) ltac:(lia)) as G. rewrite P1 in G. rewrite G. ring. }
  specialize (Hz k ltac:(lia)). unfold mvec in Hz. unfold Id in Hz. rewrite Nat.eqb_refl in Hz.
  assert (NZ : exists j, (k <= j < nc)%nat /\ H k j <> 0).
  { destruct (Nat.lt_ge_cases k (length ps)) as [L|L].
    - destruct (Nat.eq_dec (nth k ps O) k) as [E1|E1].
      + exists k. split; [lia|]. destruct (D k L) as (D1 & _). rewrite E1 in D1. lia.
      + exfalso. rewrite sumn_0 in Hz; [lia|]. intros j Hj. destruct (Nat.lt_ge_cases j k); [rewrite Z0 by lia; ring|].
        assert (G : (k < nth k ps O)%nat).
        { destruct k as [|k']; [lia|]. specialize (C k' (S k') ltac:(lia)). destruct (I2 k' ltac:(lia)) as (P & _). lia. }
        destruct (Nat.lt_ge_cases j (length ps)) as [L2|L2]; [|rewrite E by lia; ring].
        destruct (D j L2) as (_ & D2 & _). rewrite D2; [ring|].
        destruct (Nat.eq_dec j k) as [->|]; [exact G|]. specialize (C k j ltac:(lia)). lia.
    - exfalso. rewrite sumn_0 in Hz; [lia|]. intros j Hj. destruct (Nat.lt_ge_cases j k); [rewrite Z0 by lia; ring|].
      rewrite E by lia. ring. }
  assert (L : (k < length ps)%nat).
  { destruct NZ as (j & Hj & NZ). destruct (Nat.lt_ge_cases k (length ps)); [assumption|]. exfalso. apply NZ. apply E; lia. }
  split; [lia|]. intros r Hr. destruct (Nat.eq_dec r k) as [->|]; [|apply I2; lia].
  assert (G1 : (k <= nth k ps O)%nat).
  { destruct k as [|k']; [lia|]. specialize (C k' (S k') ltac:(lia)). destruct (I2 k' ltac:(lia)) as (P & _). lia. }
  assert (PK : nth k ps O = k).
  { destruct (Nat.eq_dec (nth k ps O) k); [assumption|]. exfalso. destruct NZ as (j & Hj & NZ). apply NZ.
    destruct (Nat.lt_ge_cases j (length ps)) as [L2|L2]; [|apply E; lia].
    destruct (D j L2) as (_ & D2 & _). apply D2. destruct (Nat.eq_dec j k) as [->|]; [lia|]. specialize (C k j ltac:(lia)). lia. }
  split; [exact PK|]. destruct (D k L) as (D1 & _). rewrite PK in D1.
  rewrite (sumn_one nc k) in Hz; [|lia|].
  - destruct (Z.mul_eq_1 _ _ Hz); lia.
  - intros j Hj Hne. destruct (Nat.lt_ge_cases j k); [rewrite Z0 by lia; ring|].
    pose proof (ech_right nr nc neg H ps HH k j ltac:(lia) ltac:(lia)) as G. rewrite PK in G. rewrite G. ring.
Qed.
Lemma complete_null n M row : is_mat n n M -> (row <= n)%nat -> unimodular_complete n M row = Null ->
  ~ exists R U, (forall r c, (r < row)%nat -> (c < n)%nat -> R r c = elt M r c) /\ inverses n U R.
Proof.
  intros W Hrow. unfold unimodular_complete.
  destruct (left_hermite_ok row n (firstn row M) false (firstn_is_mat n M row Hrow W)) as (s & ps & E & C & HH). rewrite E.
  destruct (forallb (fun r => get (hM s) r r =? 1) (seq 0 row)) eqn:F; [discriminate|]. intros _ (R & U & HR & _ & HI).
  enough (F' : forallb (fun r => get (hM s) r r =? 1) (seq 0 row) = true) by congruence.
  apply forallb_forall. intros r Hr. apply in_seq in Hr. apply Z.eqb_eq.
  apply (ech_full row n false (get (hM s)) ps HH) with (k := row); [|lia|lia].
  intros r' Hr'. exists (mvec n (get (hQ s)) (fun k => U k r')). intros i Hi.
  rewrite <- (core_HQ row n _ s C) by exact Hi.
  rewrite (mvec_ext n _ R _ (fun k => U k r')); auto.
  - exact (HI i r' ltac:(lia) ltac:(lia)).
  - intros k Hk. rewrite get_firstn by (destruct W; lia). symmetry. apply HR; lia.
Qed.
Lemma complete_terminates n M row : is_mat n n M -> (row <= n)%nat ->
  unimodular_complete n M row <> Div /\ unimodular_complete n M row <> UB.
Proof.
  intros W Hrow. unfold unimodular_complete.
  destruct (left_hermite_ok row n (firstn row M) false (firstn_is_mat n M row Hrow W)) as (s & ps & E & C & HH). rewrite E.
  destruct (forallb _ _); split; discriminate.
Qed.

Lemma left_hermite_spec nr nc M neg : is_mat nr nc M ->
  exists s ps, left_hermite nr nc M neg = Some s /\
    is_mat nr nc (hM s) /\
    same nr nc (elt (hM s)) (times nc (elt M) (elt (hU s))) /\
    inverses nc (elt (hU s)) (elt (hQ s)) /\
    is_hermite nr nc neg (elt (hM s)) ps.
Proof.
  intros W. destruct (left_hermite_ok nr nc M neg W) as (s & ps & E & [A B [C1 C2]] & H).
  exists s, ps. split; [exact E|]. split; [exact A|]. split; [exact B|]. split; [|exact H].
  split; intros i j Hi Hj; (transitivity (1 * delta i j); [|apply Z.mul_1_l]); [apply C1|apply C2]; assumption.
Qed.
