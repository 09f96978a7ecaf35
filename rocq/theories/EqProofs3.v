(** Proofs about parameter compression, the lattices. *)
From Coq Require Import ZArith List Bool Lia Arith ZifyBool.
From Verif Require Import SeqModel SeqSpec SeqProofs MatModel MatSpec MatTheory HermiteProofs HermiteProofs2 InverseProofs InverseProofs2 InverseMin MatProofs EqModel EqSpec EqProofs EqProofs2.
Import ListNotations.
Open Scope Z_scope.

(** the columns of [G] are a basis of the lattice [L] *)
Definition lattice (n : nat) (G : nat -> nat -> Z) (L : (nat -> Z) -> Prop) : Prop :=
  (forall w, L (mvec n G w)) /\
  (forall y, L y -> exists w, forall i, (i < n)%nat -> y i = mvec n G w i) /\
  (forall w, (forall i, (i < n)%nat -> mvec n G w i = 0) -> forall j, (j < n)%nat -> w j = 0).

(** ** the rows after scaling *)
Definition rdot (n : nat) (row : list Z) (y : nat -> Z) : Z := sumn n (fun c => nth (1 + c) row 0 * y c).
Definition lin (n : nat) (B : list (list Z)) (d : list Z) (y : nat -> Z) : Prop := Forall2 (fun row x => (x | rdot n row y)) B d.
Definition row_ok (n : nat) (row : list Z) : Prop := length row = S n /\ seq_gcd (skipn 1 row) = 1.

Lemma gcd_cancel g x t : x <> 0 -> (x | g * t) <-> (x / Z.gcd g x | t).
Proof.
  intros Hx. assert (Hg : Z.gcd g x <> 0) by (intros E; apply Z.gcd_eq_0_r in E; contradiction).
  destruct (Z.gcd_divide_l g x) as [u Hu]. destruct (Z.gcd_divide_r g x) as [v Hv].
  set (e := Z.gcd g x) in *. assert (Dv : x / e = v) by (rewrite Hv; apply Z.div_mul; exact Hg). rewrite Dv.
  assert (RP : Z.gcd v u = 1).
  { rewrite Z.gcd_comm. assert (G : Z.gcd (u * e) (v * e) = e) by (rewrite <- Hu, <- Hv; reflexivity).
    rewrite Z.gcd_mul_mono_r in G. pose proof (Z.gcd_nonneg g x) as N. fold e in N. rewrite Z.abs_eq in G by lia.
    assert ((Z.gcd u v - 1) * e = 0) as Z0 by lia. apply Z.mul_eq_0 in Z0. lia. }
  split.
  - intros (k & Hk). apply (Z.gauss v u t); [|exact RP]. exists k. rewrite Hu, Hv in Hk.
    assert ((u * t - k * v) * e = 0) as Z0 by (transitivity (u * e * t - k * (v * e)); [ring|lia]). apply Z.mul_eq_0 in Z0. destruct Z0; [lia|contradiction].
  - intros (k & Hk). exists (u * k). rewrite Hk, Hu, Hv. ring.
Qed.
Lemma rdot_zero n row y : length row = S n -> (forall x, In x (skipn 1 row) -> x = 0) -> rdot n row y = 0.
Proof.
  intros HL H. unfold rdot. apply sumn_0. intros c Hc. rewrite (H (nth (1 + c) row 0)); [ring|].
  rewrite <- (nth_skipn). apply nth_In. rewrite skipn_length. lia.
Qed.
Lemma scale_rows_ok n : forall B d, (forall row, In row B -> length row = S n) -> (forall x, In x d -> 0 < x) -> length B = length d ->
  let '(B', d') := scale_rows B d in
  length B' = length d' /\ (forall row, In row B' -> row_ok n row) /\ (forall x, In x d' -> 0 < x) /\
  forall y, lin n B d y <-> lin n B' d' y.
Proof.
  induction B as [|row B IH]; intros [|x d] HB Hd HL; try discriminate; cbn [scale_rows].
  - split; [reflexivity|]. split; [intros ? []|]. split; [intros ? []|]. intros; reflexivity.
  - specialize (IH d (fun r Hr => HB r (or_intror Hr)) (fun z Hz => Hd z (or_intror Hz)) ltac:(cbn in HL; lia)).
    destruct (scale_rows B d) as [R D]. destruct IH as (L1 & L2 & L3 & L4).
    assert (Lr : length row = S n) by (apply HB; left; reflexivity). assert (Hx : 0 < x) by (apply Hd; left; reflexivity).
    pose proof (seq_gcd_ok (skipn 1 row)) as (G0 & G1 & G2). set (g := seq_gcd (skipn 1 row)) in *.
    destruct (Z.eqb_spec g 1) as [E1|E1]; [|destruct (Z.eqb_spec g 0) as [E0|E0]].
    + split; [cbn; lia|]. split; [intros r [<-|Hr]; [split; [exact Lr|exact E1]|apply L2; exact Hr]|].
      split; [intros z [<-|Hz]; [exact Hx|apply L3; exact Hz]|]. intros y. unfold lin in *.
      split; intros F; inversion F; subst; constructor; auto; apply L4; assumption.
    + split; [exact L1|]. split; [exact L2|]. split; [exact L3|]. intros y. rewrite <- L4. unfold lin. split; intros F.
      * inversion F; subst; assumption.
      * constructor; [|exact F]. rewrite rdot_zero; [apply Z.divide_0_r|exact Lr|]. intros z Hz. specialize (G1 z Hz). rewrite E0 in G1. apply Z.divide_0_l. exact G1.
    + set (row' := hd 0 row :: seq_scale_down (skipn 1 row) g).
      assert (RE : forall c, (c < n)%nat -> nth (1 + c) row 0 = g * nth (1 + c) row' 0).
      { intros c Hc. change (nth (1 + c) row' 0) with (nth c (map (fun x => divexact x g) (skipn 1 row)) 0). rewrite (nth_indep (map (fun x => divexact x g) (skipn 1 row)) 0 (divexact 0 g)) by (rewrite map_length, skipn_length; lia).
        rewrite (map_nth (fun x => divexact x g)). rewrite nth_skipn. cbn [plus]. unfold divexact.
        destruct (G1 (nth (S c) row 0)) as (q & Hq); [rewrite <- (nth_skipn row 1); apply nth_In; rewrite skipn_length; lia|].
        rewrite Hq, Z.div_mul by exact E0. ring. }
      assert (RD : forall y, rdot n row y = g * rdot n row' y).
      { intros y. unfold rdot. rewrite <- sumn_mul. apply sumn_ext. intros c Hc. rewrite RE by exact Hc. ring. }
      assert (Eg : Z.gcd g x <> 0) by (intros E; apply Z.gcd_eq_0_r in E; lia).
      assert (DE : divexact x (Z.gcd g x) = x / Z.gcd g x) by reflexivity.
      split; [cbn; lia|]. split; [|split].
      * intros r [<-|Hr]; [|apply L2; exact Hr]. split; [unfold row', seq_scale_down; cbn [length]; rewrite map_length, skipn_length; lia|].
        pose proof (seq_gcd_ok (skipn 1 row')) as (G0' & G1' & G2'). set (g' := seq_gcd (skipn 1 row')) in *.
        assert (DD : (g' * g | g)).
        { apply G2. intros z Hz. destruct (In_nth _ _ 0 Hz) as (c & Hc & Ec). rewrite skipn_length in Hc. rewrite nth_skipn in Ec. subst z.
          rewrite RE by lia. rewrite (Z.mul_comm g' g). apply Z.mul_divide_mono_l.
          apply G1'. rewrite <- (nth_skipn row' 1). apply nth_In. change (c < length (map (fun x => divexact x g) (skipn 1 row)))%nat. rewrite map_length, skipn_length. lia. }
        destruct DD as (q & Hq). assert (g * (q * g' - 1) = 0) as Z0 by lia. apply Z.mul_eq_0 in Z0. destruct Z0 as [|Z0]; [lia|].
        assert (D1 : (g' | 1)) by (exists q; lia). apply Z.divide_1_r in D1. lia.
      * intros z [<-|Hz]; [|apply L3; exact Hz]. rewrite DE. destruct (Z.gcd_divide_r g x) as (q & Hq).
        rewrite Hq at 1. rewrite Z.div_mul by exact Eg. pose proof (Z.gcd_nonneg g x). nia.
      * intros y. unfold lin in *. split; intros F; inversion F as [|? ? ? ? F1 F2]; subst; constructor; try (apply L4; assumption).
        -- rewrite DE. apply gcd_cancel; [lia|]. rewrite <- RD. exact F1.
        -- rewrite RD. apply gcd_cancel; [lia|]. exact F1.
Qed.

(** ** completing one primitive row *)
Lemma complete_prim n (f : nat -> Z) : (1 <= n)%nat -> (forall d, (forall c, (c < n)%nat -> (d | f c)) -> (d | 1)) ->
  exists R V, unimodular_complete n (tab n n (fun r c => if Nat.eqb r 0 then f c else 0)) 1 = Ok R /\
    is_mat n n R /\ (forall c, (c < n)%nat -> get R 0 c = f c) /\ invp n V (get R) 1.
Proof.
  intros Hn Hf. set (M := tab n n _).
  assert (WM : is_mat n n M) by apply wf_tab.
  destruct (unimodular_complete n M 1) as [R| | |] eqn:E.
  - destruct (complete_ok n M 1 R WM Hn E) as (A & V & [B1 B2]). exists R, V. split; [reflexivity|]. split; [|split].
    + revert E. unfold unimodular_complete. destruct (left_hermite 1 n (firstn 1 M) false); [|discriminate]. destruct (forallb _ _); [|discriminate].
      intros [= <-]. apply wf_tab.
    + intros c Hc. specialize (A O c ltac:(lia) Hc). change (get R 0 c = get M 0 c) in A. rewrite A. unfold M. rewrite get_tab by lia. reflexivity.
    + split; intros i j Hi Hj; rewrite Z.mul_1_l; [apply B1|apply B2]; assumption.
  - exfalso. revert E. unfold unimodular_complete.
    destruct (left_hermite_ok 1 n (firstn 1 M) false (firstn_is_mat n M 1 Hn WM)) as (s & ps & E & C & HH). rewrite E. cbn [seq forallb].
    enough (G : get (hM s) 0 0 = 1) by (rewrite G; discriminate).
    assert (Q : forall c, (c < n)%nat -> f c = mvec n (get (hM s)) (fun k => get (hQ s) k c) 0).
    { intros c Hc. pose proof (core_HQ 1 n _ s C (fun k => Id k c) O ltac:(lia)) as G.
      assert (G1 : mvec n (get (firstn 1 M)) (fun k => Id k c) 0 = f c).
      { transitivity (get (firstn 1 M) 0 c); [exact (mmul_Id_r n _ 0 c Hc)|]. rewrite get_firstn by (rewrite ?(proj1 WM); lia). unfold M. rewrite get_tab by lia. reflexivity. }
      rewrite <- G1, G. apply mvec_ext; [reflexivity|]. intros k Hk. exact (mmul_Id_r n _ k c Hc). }
    pose proof HH as (A & B & CC & D & EE).
    destruct ps as [|p ps'].
    + exfalso. assert (H0 : (0 | 1)); [|apply Z.divide_0_l in H0; lia]. apply Hf. intros c Hc. rewrite Q by exact Hc.
      unfold mvec. rewrite sumn_0; [apply Z.divide_0_r|]. intros k Hk. rewrite EE by (cbn [length]; lia). ring.
    + assert (p = O) by (specialize (B O ltac:(cbn; lia)); cbn in B; lia). subst p. destruct (D O ltac:(cbn; lia)) as (D1 & _). cbn [nth] in D1.
      assert (H1 : (get (hM s) 0 0 | 1)).
      { apply Hf. intros c Hc. rewrite Q by exact Hc. unfold mvec. rewrite (sumn_one n 0); [apply Z.divide_mul_l, Z.divide_refl|lia|].
        intros k Hk Hne. pose proof (ech_right 1 n false _ _ HH O k ltac:(cbn; lia) ltac:(lia)) as R. cbn [nth] in R. rewrite R. ring. }
      apply Z.divide_1_r in H1. lia.
  - destruct (complete_terminates n M 1 WM Hn) as (_ & F). congruence.
  - destruct (complete_terminates n M 1 WM Hn) as (F & _). congruence.
Qed.
Lemma row_ok_prim n row : row_ok n row -> (1 <= n)%nat /\ forall d, (forall c, (c < n)%nat -> (d | nth (1 + c) row 0)) -> (d | 1).
Proof.
  intros (HL & HG). pose proof (seq_gcd_ok (skipn 1 row)) as (G0 & G1 & G2). rewrite HG in *. split.
  - destruct n as [|n]; [|lia]. assert (S0 : skipn 1 row = []) by (apply length_zero_iff_nil; rewrite skipn_length; lia). rewrite S0 in HG. discriminate.
  - intros d Hd. apply G2. intros x Hx. destruct (In_nth _ _ 0 Hx) as (c & Hc & <-). rewrite nth_skipn. apply Hd. rewrite skipn_length in Hc. lia.
Qed.

(** the inverse of a unimodular matrix *)
Lemma right_inverse_unimodular n R V : is_mat n n R -> (1 <= n)%nat -> invp n V (get R) 1 ->
  exists inv, right_inverse n n R = Ok inv /\ invp n (get inv) (get R) 1.
Proof.
  intros W Hn [I1 I2]. pose proof (right_inverse_ok n n R W Hn) as F. destruct (right_inverse n n R) as [inv| | |] eqn:E; try contradiction.
  - destruct F as (a & Ha & _ & F1 & F2). specialize (F2 eq_refl). exists inv. split; [reflexivity|].
    assert (a = 1).
    { pose proof (right_inverse_min n R inv W Hn E V 1) as D. rewrite F1 in D by lia. change (delta 0 0) with 1 in D. rewrite Z.mul_1_r in D.
      assert (D1 : (a | 1)) by (apply D; intros i j Hi Hj; exact (I2 i j Hi Hj)). apply Z.divide_1_r in D1. lia. }
    subst a. split; [exact F2|exact F1].
  - exfalso. destruct F as (v & (r & Hr & Hv) & F). apply Hv.
    assert (Q : mmul n (mmul n (fun _ k => v k) (get R)) V 0 r = v r).
    { rewrite mmul_assoc. rewrite (mmul_ext n _ (fun _ k => v k) _ Id); [|reflexivity|intros k Hk; rewrite I2 by lia; ring]. apply (mmul_Id_r n (fun _ k => v k) 0 r Hr). }
    rewrite <- Q. unfold mmul at 1. apply sumn_0. intros c Hc. specialize (F c Hc). change (mmul n (fun _ k => v k) (get R) 0 c = 0) in F. rewrite F. ring.
Qed.

(** a result of the form [1 0; 0 G] *)
Definition aff_lattice (n : nat) (T : list (list Z)) (L : (nat -> Z) -> Prop) : Prop :=
  is_mat (1 + n) (1 + n) T /\ get T 0 0 = 1 /\ (forall j, (j < n)%nat -> get T 0 (S j) = 0 /\ get T (S j) 0 = 0) /\
  lattice n (fun r c => get T (S r) (S c)) L.

Lemma lattice_ext n G G' (L : (nat -> Z) -> Prop) : (forall i j, (i < n)%nat -> (j < n)%nat -> G i j = G' i j) -> (forall y y', (forall i, (i < n)%nat -> y i = y' i) -> L y -> L y') ->
  lattice n G L -> lattice n G' L.
Proof.
  intros E HL (A & B & C). assert (EM : forall w i, (i < n)%nat -> mvec n G w i = mvec n G' w i).
  { intros w i Hi. apply mvec_ext; [|reflexivity]. intros. apply E; assumption. }
  split; [|split].
  - intros w. apply (HL (mvec n G w)); [intros; apply EM; assumption|apply A].
  - intros y Hy. destruct (B y Hy) as (w & Hw). exists w. intros i Hi. rewrite <- EM by exact Hi. apply Hw. exact Hi.
  - intros w Hw. apply C. intros i Hi. rewrite EM by exact Hi. apply Hw. exact Hi.
Qed.
Lemma rdot_ext n row y y' : (forall i, (i < n)%nat -> y i = y' i) -> rdot n row y = rdot n row y'.
Proof. intros E. apply sumn_ext. intros c Hc. rewrite E by exact Hc. reflexivity. Qed.
Lemma lin_ext n B d y y' : (forall i, (i < n)%nat -> y i = y' i) -> lin n B d y -> lin n B d y'.
Proof.
  intros E F. unfold lin in *. induction F; constructor; auto. rewrite <- (rdot_ext n x y y' E). assumption.
Qed.

Lemma compression_1_ok n row x : row_ok n row -> 0 < x ->
  exists T, parameter_compression_1 n [row] [x] = Ok T /\ aff_lattice n T (lin n [row] [x]).
Proof.
  intros Hr Hx. destruct (row_ok_prim n row Hr) as (Hn & Hp).
  destruct (complete_prim n (fun c => nth (1 + c) row 0) Hn Hp) as (R & V & ER & WR & R0 & IR).
  unfold parameter_compression_1. change (fun r c => if Nat.eqb r 0 then get [row] 0 (1 + c) else 0) with (fun r c => if Nat.eqb r 0 then nth (1 + c) row 0 else 0).
  rewrite ER. destruct (right_inverse_unimodular n R V WR Hn IR) as (inv & EI & II). rewrite EI. cbn [nth].
  eexists. split; [reflexivity|]. split; [apply lin_to_aff_wf|]. split; [rewrite lin_to_aff_get by lia; reflexivity|].
  split; [intros j Hj; rewrite !lin_to_aff_get by lia; split; reflexivity|].
  set (sc := fun (w : nat -> Z) i => if Nat.eqb i 0 then x * w i else w i).
  set (G := fun r c => get (mat_col_mul n n inv 0 x 0) r c).
  apply (lattice_ext n G); [intros i j Hi Hj; rewrite lin_to_aff_get by lia; reflexivity|intros y y' E; apply lin_ext; exact E|].
  assert (GE : forall w i, (i < n)%nat -> mvec n G w i = mvec n (get inv) (sc w) i).
  { intros w i Hi. unfold mvec. apply sumn_ext. intros c Hc. unfold G, mat_col_mul, sc. rewrite get_tab by lia. destruct (Nat.eqb_spec c 0) as [->|]; ring. }
  assert (RG : forall w i, (i < n)%nat -> mvec n (get R) (mvec n G w) i = sc w i).
  { intros w i Hi. rewrite (mvec_ext n (get R) (get R) (mvec n G w) (mvec n (get inv) (sc w))); [|reflexivity|intros; apply GE; assumption].
    rewrite (invp_vec n (get inv) (get R) 1 (sc w) II i Hi). ring. }
  assert (L0 : forall y, rdot n row y = mvec n (get R) y 0).
  { intros y. unfold rdot, mvec. apply sumn_ext. intros c Hc. rewrite R0 by exact Hc. reflexivity. }
  split; [|split].
  - intros w. constructor; [|constructor]. rewrite L0, RG by lia. unfold sc. cbn [Nat.eqb]. apply Z.divide_mul_l, Z.divide_refl.
  - intros y Hy. inversion Hy as [|? ? ? ? H1 _]; subst. rewrite L0 in H1. destruct H1 as (q & Hq).
    exists (fun i => if Nat.eqb i 0 then q else mvec n (get R) y i). intros i Hi. rewrite GE by exact Hi.
    rewrite <- (Z.mul_1_l (y i)). rewrite <- (invp_vec n (get R) (get inv) 1 y (invp_sym _ _ _ _ II) i Hi).
    apply mvec_ext; [reflexivity|]. intros k Hk. unfold sc. destruct (Nat.eqb_spec k 0) as [->|]; [lia|reflexivity].
  - intros w Hw j Hj.
    assert (S0 : sc w j = 0). { rewrite <- RG by exact Hj. unfold mvec at 1. apply sumn_0. intros k Hk. rewrite Hw by exact Hk. ring. }
    unfold sc in S0. destruct (Nat.eqb j 0); nia.
Qed.
