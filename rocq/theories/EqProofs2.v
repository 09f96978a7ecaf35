(** Proofs about parameter compression. *)
From Coq Require Import ZArith List Bool Lia Arith ZifyBool.
From Verif Require Import SeqModel SeqSpec SeqProofs MatModel MatSpec MatTheory HermiteProofs HermiteProofs2 InverseProofs InverseProofs2 InverseMin MatProofs EqModel EqSpec EqProofs.
Import ListNotations.
Open Scope Z_scope.

Lemma find_nonzero n k (f : nat -> Z) : (exists c, (k <= c < n)%nat /\ f c <> 0) \/ forall c, (k <= c < n)%nat -> f c = 0.
Proof.
  induction n as [|n IH]; [right; intros; lia|]. destruct IH as [(c & Hc & Hf)|IH]; [left; exists c; split; [lia|exact Hf]|].
  destruct (Z.eq_dec (f n) 0) as [E|E].
  - right. intros c Hc. destruct (Nat.eq_dec c n) as [->|]; [exact E|apply IH; lia].
  - destruct (Nat.le_gt_cases k n); [left; exists n; split; [lia|exact E]|right; intros; lia].
Qed.
(** if every unit vector has a multiple in the column lattice then the rank is full *)
Lemma ech_full_rank nr nc neg H ps : is_hermite nr nc neg H ps ->
  (forall r, (r < nr)%nat -> exists t z, t <> 0 /\ forall i, (i < nr)%nat -> mvec nc H z i = t * Id i r) ->
  length ps = nr.
Proof.
  intros HH HF. pose proof HH as (A & B & C & D & E).
  assert (G : forall k, (k <= nr)%nat -> (k <= length ps)%nat /\ forall r, (r < k)%nat -> nth r ps O = r).
  { induction k as [|k IH]; intros Hk; [split; lia|].
    destruct (IH ltac:(lia)) as (I1 & I2). destruct (HF k ltac:(lia)) as (t & z & Ht & Hz).
    assert (Z0 : forall i, (i < k)%nat -> z i = 0).
    { intros i. induction i as [i IHi] using (well_founded_induction lt_wf). intros Hi.
      specialize (Hz i ltac:(lia)). unfold mvec in Hz. pose proof (I2 i Hi) as P1.
      rewrite (sumn_one nc i) in Hz; [|lia|].
      - unfold Id in Hz. destruct (Nat.eqb_spec i k); [lia|]. destruct (D i ltac:(lia)) as (D1 & _). rewrite P1 in D1. nia.
      - intros c Hc Hne. destruct (Nat.lt_ge_cases c i); [rewrite IHi by lia; ring|].
        pose proof (ech_right nr nc neg H ps HH i c ltac:(lia) ltac:(lia)) as R. rewrite P1 in R. rewrite R. ring. }
    specialize (Hz k ltac:(lia)). unfold Id in Hz. rewrite Nat.eqb_refl, Z.mul_1_r in Hz.
    assert (X : exists c, (k <= c < nc)%nat /\ H k c <> 0).
    { destruct (find_nonzero nc k (fun c => H k c)) as [X|X]; [exact X|]. exfalso. apply Ht. rewrite <- Hz. unfold mvec. apply sumn_0.
      intros c Hc. destruct (Nat.lt_ge_cases c k); [rewrite Z0 by lia; ring|]. rewrite X by lia. ring. }
    destruct X as (c & Hc & Hne).
    assert (Lc : (c < length ps)%nat). { destruct (Nat.lt_ge_cases c (length ps)); [assumption|]. exfalso. apply Hne. apply E; lia. }
    assert (Pc : (nth c ps O <= k)%nat). { destruct (Nat.le_gt_cases (nth c ps O) k); [assumption|]. exfalso. apply Hne. apply (D c Lc). lia. }
    assert (Gc : forall j, (j < length ps)%nat -> (j <= nth j ps O)%nat).
    { induction j as [|j IHj]; intros Hj; [lia|]. specialize (IHj ltac:(lia)). specialize (C j (S j) ltac:(lia)). lia. }
    specialize (Gc c Lc). assert (c = k) by lia. subst c. split; [lia|].
    intros r Hr. destruct (Nat.eq_dec r k) as [->|]; [lia|apply I2; lia]. }
  destruct (G nr (Nat.le_refl _)) as (G1 & _).
  assert (G2 : (length ps <= nr)%nat); [|lia].
  assert (Gc : forall j, (j < length ps)%nat -> (j <= nth j ps O)%nat).
  { induction j as [|j IHj]; intros Hj; [lia|]. specialize (IHj ltac:(lia)). specialize (C j (S j) ltac:(lia)). lia. }
  destruct (Nat.le_gt_cases (length ps) nr) as [|L]; [assumption|]. specialize (Gc nr L). specialize (B nr L). lia.
Qed.

(** ** particular_solution *)
(** the first coordinates of a solution, padded with zeros *)
Lemma mvec_pad m n A z i : (m <= n)%nat -> mvec n A (fun k => if Nat.ltb k m then z k else 0) i = mvec m A z i.
Proof.
  intros H. replace n with (m + (n - m))%nat by lia. rewrite mvec_split. unfold mvec at 2. rewrite sumn_0, Z.add_0_r.
  - apply mvec_ext; [reflexivity|]. intros k Hk. destruct (Nat.ltb_spec k m); [reflexivity|lia].
  - intros k Hk. destruct (Nat.ltb_spec (m + k) m); [lia|ring].
Qed.
(** the vector [(1, y)] *)
Definition hom (y : nat -> Z) (i : nat) : Z := match i with O => 1 | S j => y j end.

Lemma congruent_hom m n B d y : congruent m (1 + n) (elt B) (fun i => nth i d 0) (hom y) <->
  forall i, (i < m)%nat -> (nth i d 0 | get B i 0 + mvec n (fun r c => get B r (1 + c)) y i).
Proof.
  assert (E : forall i, apply (1 + n) (elt B) (hom y) i = get B i 0 + mvec n (fun r c => get B r (1 + c)) y i).
  { intros i. change (mvec (S n) (get B) (hom y) i = get B i 0 + mvec n (fun r c => get B r (1 + c)) y i). unfold mvec. rewrite sumn_front. cbn [hom]. rewrite Z.mul_1_r. reflexivity. }
  unfold congruent. split; intros H i Hi; specialize (H i Hi); rewrite E in *; exact H.
Qed.
Lemma homogeneous_hom v : homogeneous v -> forall i, v i = hom (fun j => v (S j)) i.
Proof. intros H [|i]; [exact H|reflexivity]. Qed.
Lemma congruent_ext m n B d v v' : (forall i, (i < n)%nat -> v i = v' i) -> congruent m n B d v -> congruent m n B d v'.
Proof.
  intros E H i Hi. specialize (H i Hi). change (apply n B v' i) with (mvec n B v' i). rewrite <- (mvec_ext n B B v v' i); auto.
Qed.

Lemma particular_solution_ok m n B d : (forall i, (i < m)%nat -> 0 < nth i d 0) ->
  match particular_solution m n B d with
  | Ok (Some cst) => is_mat n 1 cst /\ congruent m (1 + n) (elt B) (fun i => nth i d 0) (hom (fun j => get cst j 0))
  | Ok None => forall v, homogeneous v -> ~ congruent m (1 + n) (elt B) (fun i => nth i d 0) v
  | _ => False
  end.
Proof.
  intros Hd. unfold particular_solution.
  set (M := tab m (m + n) _). set (C := tab (1 + m) 1 _).
  destruct (left_hermite_ok m (m + n) M false (wf_tab _ _ _)) as (s & ps & E & HC & HH). rewrite E.
  set (H1 := mat_sub (hM s) 0 m 0 m).
  assert (WC : is_mat (1 + m) 1 C) by apply wf_tab.
  assert (WH1 : is_mat m m H1) by apply (mat_sub_ok (hM s) 0 m 0 m).
  assert (MG : forall i x, (i < m)%nat -> mvec (m + n) (get M) x i = nth i d 0 * x i + mvec n (fun r c => get B r (1 + c) mod nth r d 0) (fun c => x (m + c)%nat) i).
  { intros i x Hi. rewrite mvec_split. f_equal.
    - unfold mvec. rewrite (sumn_one m i); [|exact Hi|].
      + unfold M. rewrite get_tab by lia. destruct (Nat.ltb_spec i m); [|lia]. rewrite Nat.eqb_refl. reflexivity.
      + intros k Hk Hne. unfold M. rewrite get_tab by lia. destruct (Nat.ltb_spec k m); [|lia]. destruct (Nat.eqb_spec i k); [lia|ring].
    - apply mvec_ext; [|reflexivity]. intros c Hc. unfold M. rewrite get_tab by lia. destruct (Nat.ltb_spec (m + c) m); [lia|].
      replace (m + c - m)%nat with c by lia. reflexivity. }
  assert (full : length ps = m).
  { apply (ech_full_rank m (m + n) false _ ps HH). intros r Hr. specialize (Hd r Hr).
    exists (nth r d 0), (mvec (m + n) (get (hQ s)) (fun k => if Nat.eqb k r then 1 else 0)). split; [lia|]. intros i Hi.
    rewrite <- (core_HQ m (m + n) (get M) s HC) by exact Hi. rewrite MG by exact Hi.
    unfold mvec. rewrite sumn_0. 2:{ intros k Hk. destruct (Nat.eqb_spec (m + k) r); [lia|ring]. }
    unfold Id. destruct (Nat.eqb_spec i r) as [->|]; ring. }
  assert (SE : forall x i, (i < m)%nat -> mvec (m + n) (get M) x i = mvec m (get H1) (mvec (m + n) (get (hQ s)) x) i).
  { intros x i Hi. apply (solve_eq m (m + n) (get M) s ps HC HH); lia. }
  destruct (inverse_product (1 + m) 1 (mat_lin_to_aff m m H1) C) as [X| | |] eqn:EX.
  2:{ destruct (inverse_aff_null m 1 H1 C WH1 WC EX) as (v & V1 & V2).
      pose proof (H1_singular m (m + n) s ps HH v ltac:(lia) V1 V2). lia. }
  2,3: pose proof (inverse_product_ok (1 + m) 1 (mat_lin_to_aff m m H1) C (lin_to_aff_wf m m H1) WC) as F; rewrite EX in F; exact F.
  destruct (inverse_aff m 1 H1 C X WH1 WC ltac:(lia)) as (WX & X00 & _ & HX); [| |exact EX|].
  { unfold C. rewrite get_tab by lia. reflexivity. }
  { intros j Hj. lia. }
  assert (CG : forall i, (i < m)%nat -> get C (S i) 0 = (- get B i 0) mod nth i d 0).
  { intros i Hi. unfold C. rewrite get_tab by lia. reflexivity. }
  assert (HX' : forall i, (i < m)%nat -> mvec m (get H1) (fun k => get X (S k) 0) i = get X 0 0 * get C (S i) 0).
  { intros i Hi. rewrite <- HX by lia. reflexivity. }
  (* congruences as equalities *)
  assert (CE : forall y i, (i < m)%nat -> (nth i d 0 | get B i 0 + mvec n (fun r c => get B r (1 + c)) y i) <->
     (nth i d 0 | get C (S i) 0 - mvec n (fun r c => get B r (1 + c) mod nth r d 0) y i)).
  { intros y i Hi. specialize (Hd i Hi). set (q := nth i d 0) in *. rewrite CG by exact Hi. fold q.
    assert (E1 : (q | mvec n (fun r c => get B r (1 + c)) y i - mvec n (fun r c => get B r (1 + c) mod nth r d 0) y i)).
    { exists (mvec n (fun r c => get B r (1 + c) / q) y i). unfold mvec. rewrite <- sumn_mul_r.
      replace (sumn n (fun k => get B i (1 + k) * y k) - sumn n (fun k => get B i (1 + k) mod nth i d 0 * y k)) with
        (sumn n (fun k => get B i (1 + k) * y k) + -1 * sumn n (fun k => get B i (1 + k) mod nth i d 0 * y k)) by ring.
      rewrite <- sumn_mul, <- sumn_add. apply sumn_ext. intros k Hk. fold q.
      pose proof (Z.div_mod (get B i (1 + k)) q ltac:(lia)) as DM. rewrite DM at 1. ring. }
    assert (E2 : (q | get B i 0 + (- get B i 0) mod q)).
    { exists (- (- get B i 0 / q)). pose proof (Z.div_mod (- get B i 0) q ltac:(lia)) as DM. lia. }
    destruct E1 as (u & Hu). destruct E2 as (w & Hw). split; intros (z & Hz).
    - exists (w - z + u). lia.
    - exists (w + u - z). lia. }
  destruct (forallb _ (seq 0 m)) eqn:F; cbn [negb].
  - (* the particular solution *)
    rewrite forallb_forall in F.
    assert (DV : forall i, (i < m)%nat -> (get X 0 0 | get X (S i) 0)).
    { intros i Hi. specialize (F i). rewrite in_seq in F. specialize (F ltac:(lia)). apply divisible_by_ok in F; [exact F|lia]. }
    set (cst := tab m 1 (fun i _ => divexact (get X (1 + i) 0) (get X 0 0))).
    assert (CS : forall i, (i < m)%nat -> get X (S i) 0 = get X 0 0 * get cst i 0).
    { intros i Hi. unfold cst. rewrite get_tab by lia. destruct (DV i Hi) as (q & Hq). unfold divexact. change (1 + i)%nat with (S i). rewrite Hq.
      rewrite Z.div_mul by lia. ring. }
    set (T := mat_sub (hU s) m n 0 m).
    destruct (product_ok n m 1 T cst (proj1 (mat_sub_ok (hU s) m n 0 m))) as (P1 & P2). split; [exact P1|].
    apply congruent_hom. intros i Hi. apply CE; [exact Hi|].
    set (z := fun k => if Nat.ltb k m then get cst k 0 else 0).
    assert (HZ : mvec (m + n) (get M) (mvec (m + n) (get (hU s)) z) i = get C (S i) 0).
    { rewrite <- (core_HU m (m + n) (get M) s _ 1 HC) by exact Hi. unfold z. rewrite (mvec_pad m (m + n)) by lia.
      assert (G : get X 0 0 * mvec m (get (hM s)) (fun k => get cst k 0) i = get X 0 0 * get C (S i) 0); [|nia].
      rewrite <- HX' by exact Hi. rewrite <- mvec_lin.
      apply mvec_ext; [|intros k Hk; rewrite CS by exact Hk; reflexivity].
      intros k Hk. symmetry. apply (mat_sub_ok (hM s) 0 m 0 m); lia. }
    rewrite MG in HZ by exact Hi. rewrite <- HZ.
    exists (mvec (m + n) (get (hU s)) z i).
    rewrite (mvec_ext n (fun r c => get B r (1 + c) mod nth r d 0) (fun r c => get B r (1 + c) mod nth r d 0) (fun j => get (mat_product n 1 T cst) j 0) (fun c => mvec (m + n) (get (hU s)) z (m + c)%nat)).
    + ring.
    + reflexivity.
    + intros c Hc. specialize (P2 c O Hc ltac:(lia)). change (get (mat_product n 1 T cst) c 0 = mmul m (get T) (get cst) c 0) in P2. rewrite P2.
      unfold z. rewrite (mvec_pad m (m + n)) by lia. unfold mmul, mvec. apply sumn_ext. intros k Hk. f_equal. apply (mat_sub_ok (hU s) m n 0 m); lia.
  - (* no solutions *)
    intros v Hv Cv. 
    assert (F' : forallb (fun i => divisible_by (get X (1 + i) 0) (get X 0 0)) (seq 0 m) = true); [|rewrite F' in F; discriminate].
    apply forallb_forall. intros i Hi. apply in_seq in Hi. apply divisible_by_ok; [lia|].
    apply (congruent_ext _ _ _ _ _ (hom (fun j => v (S j)))) in Cv; [|intros k Hk; apply homogeneous_hom; exact Hv].
    rewrite congruent_hom in Cv. set (y := fun j => v (S j)) in *.
    assert (XE : exists x, forall i, (i < m)%nat -> nth i d 0 * x i + mvec n (fun r c => get B r (1 + c) mod nth r d 0) y i = get C (S i) 0).
    { exists (fun i => (get C (S i) 0 - mvec n (fun r c => get B r (1 + c) mod nth r d 0) y i) / nth i d 0). intros j Hj.
      specialize (Cv j Hj). rewrite CE in Cv by exact Hj. destruct Cv as (q & Hq). rewrite Hq. specialize (Hd j Hj). rewrite Z.div_mul by lia. lia. }
    destruct XE as (x & Hx). set (xy := fun k => if Nat.ltb k m then x k else y (k - m)%nat).
    assert (Hxy : forall i, (i < m)%nat -> mvec (m + n) (get M) xy i = get C (S i) 0).
    { intros j Hj. rewrite MG by exact Hj. rewrite <- Hx by exact Hj. f_equal.
      - unfold xy. destruct (Nat.ltb_spec j m); [reflexivity|lia].
      - apply mvec_ext; [reflexivity|]. intros k Hk. unfold xy. destruct (Nat.ltb_spec (m + k) m); [lia|]. f_equal. lia. }
    set (z := mvec (m + n) (get (hQ s)) xy).
    exists (z i). rewrite Z.mul_comm.
    assert (G : get X (S i) 0 + - get X 0 0 * z i = 0); [|change (1 + i)%nat with (S i); lia].
    apply (H1_inj m (m + n) s ps HH (fun k => get X (S k) 0 + - get X 0 0 * z k) full ltac:(lia)); [|lia].
    intros r Hr. fold H1. unfold mvec. rewrite (sumn_ext m _ (fun k => get H1 r k * get X (S k) 0 + - get X 0 0 * (get H1 r k * z k))) by (intros; ring).
    rewrite sumn_add, sumn_mul. pose proof (HX' r Hr) as Q1. unfold mvec in Q1. rewrite Q1.
    pose proof (Hxy r Hr) as Q2. rewrite SE in Q2 by exact Hr. fold z in Q2. unfold mvec in Q2. rewrite Q2. ring.
Qed.
