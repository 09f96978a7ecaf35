(** Proofs for isl_basic_map_normalize_constraints. *)
From Coq Require Import ZArith List Bool Lia Arith Permutation.
From Verif Require Import SeqModel SeqSpec SeqProofs MatModel BMapModel BMapSpec BMapSem BMapLists.
Import ListNotations.
Open Scope Z_scope.


Lemma dot_zero r : (forall x, In x r -> x = 0) -> forall v, dot r v = 0.
Proof. induction r as [|x r IH]; intros H [|y v]; cbn; auto. rewrite (H x) by (left; reflexivity). rewrite IH; [ring|]. intros z Hz. apply H. right. exact Hz. Qed.
Lemma dot_divide g r : (forall x, In x r -> (g | x)) -> forall v, (g | dot r v).
Proof.
  induction r as [|x r IH]; intros H [|y v]; cbn; try apply Z.divide_0_r. apply Z.divide_add_r.
  - apply Z.divide_mul_l. apply H. left. reflexivity.
  - apply IH. intros z Hz. apply H. right. exact Hz.
Qed.
Lemma dot_hd_tl r v : dot r v = hd 0 r * hd 0 v + dot (tl r) (tl v).
Proof. destruct r, v; cbn; try lia. rewrite dot_nil_r. lia. Qed.
Lemma gcd_scale g l : g <> 0 -> is_gcd g l -> is_gcd 1 (map (fun x => x / g) l).
Proof.
  intros Hg (P & D & U). split; [lia|]. split; [intros; apply Z.divide_1_l|]. intros d Hd.
  assert (E : (g * d | g)).
  { apply U. intros x Hx. destruct (D x Hx) as [k Hk]. specialize (Hd (x / g)). rewrite Hk in Hd |- *. rewrite Z.div_mul in Hd by lia.
    rewrite (Z.mul_comm k g). apply Z.mul_divide_mono_l. apply Hd. apply in_map_iff. exists x. rewrite Hk. rewrite Z.div_mul by lia. split; [reflexivity|]. rewrite <- Hk. exact Hx. }
  destruct E as [k Hk]. exists k. assert (g * (1 - k * d) = 0) by lia. apply Z.mul_eq_0 in H as [H|H]; [lia|lia].
Qed.
Lemma gcd_cons g x l : is_gcd g l -> is_gcd (Z.gcd g x) (x :: l).
Proof.
  intros (P & D & U). split; [apply Z.gcd_nonneg|]. split.
  - intros y [<-|Hy]; [apply Z.gcd_divide_r|]. etransitivity; [apply Z.gcd_divide_l|]. apply D. exact Hy.
  - intros d Hd. apply Z.gcd_greatest; [apply U|]; intros; apply Hd; [right; assumption|left; reflexivity].
Qed.


Lemma row_gcd (rat : bool) r : r <> [] -> seq_gcd (tl r) <> 0 ->
  exists g, (if rat then Z.gcd (seq_gcd (tl r)) (hd 0 r) else seq_gcd (tl r)) = g /\ 0 < g /\
    (if rat then is_gcd g r else is_gcd g (tl r)) /\ (forall x, In x (tl r) -> (g | x)).
Proof.
  intros Hr Hg. pose proof (seq_gcd_ok (tl r)) as G. assert (0 <= seq_gcd (tl r)) by apply G. eexists. split; [reflexivity|]. destruct rat.
  - destruct r as [|c r]; [congruence|]. cbn [tl hd] in *. split.
    + pose proof (Z.gcd_nonneg (seq_gcd r) c). assert (Z.gcd (seq_gcd r) c <> 0) by (intros E; apply Z.gcd_eq_0_l in E; lia). lia.
    + split; [apply gcd_cons; exact G|]. intros x Hx. etransitivity; [apply Z.gcd_divide_l|]. apply G. exact Hx.
  - split; [lia|]. split; [exact G|]. apply G.
Qed.

Lemma normalize_eq_ok rat r : r <> [] ->
  match normalize_eq rat r with
  | Keep r' => length r' = length r /\ reduced rat r' /\ exists g, 0 < g /\ forall v, dot r v = g * dot r' v
  | Drop => forall v, zero_on v r
  | Contradiction => forall v, admissible rat v -> ~ zero_on v r
  end.
Proof.
  intros Hr. unfold normalize_eq. pose proof (seq_gcd_ok (tl r)) as G. destruct (Z.eqb_spec (seq_gcd (tl r)) 0) as [E0|E0].
  - rewrite E0 in G. pose proof (dot_zero (tl r) (is_gcd_zero _ G)) as Z0. destruct (Z.eqb_spec (hd 0 r) 0) as [Eh|Eh]; cbn [negb].
    + intros v. unfold zero_on. rewrite dot_hd_tl, Eh, Z0. lia.
    + intros v [Hv _]. unfold zero_on. rewrite dot_hd_tl, Z0. nia.
  - destruct (row_gcd rat r Hr E0) as (g & -> & Hg & Gg & Dg). destruct (Z.eqb_spec g 1) as [E1|E1].
    + subst g. split; [reflexivity|]. split; [unfold reduced; destruct rat; exact Gg|]. exists 1. split; [lia|]. intros; lia.
    + destruct (Z.eqb_spec (hd 0 r mod g) 0) as [Em|Em]; cbn [negb].
      * assert (Dr : forall x, In x r -> (g | x)).
        { destruct r as [|c r]; [congruence|]. intros x [<-|Hx]; [|apply Dg; exact Hx]. cbn in Em. apply Z.mod_divide; [lia|exact Em]. }
        split; [apply map_length|]. split.
        -- unfold reduced, seq_scale_down, divexact. destruct rat; [apply gcd_scale; [lia|exact Gg]|]. destruct r as [|c r]; [congruence|]. cbn [map tl] in *. apply gcd_scale; [lia|exact Gg].
        -- exists g. split; [lia|]. intros v. unfold seq_scale_down, divexact. rewrite dot_div; [reflexivity|lia|exact Dr].
      * intros v [Hp Hi]. unfold zero_on. rewrite dot_hd_tl. destruct rat.
        -- destruct r as [|c r]; [congruence|]. cbn [hd] in Em. exfalso. apply Em. apply Z.mod_divide; [lia|]. apply Gg. left. reflexivity.
        -- rewrite Hi by reflexivity. intros E. apply Em. apply Z.mod_divide; [lia|]. destruct (dot_divide g (tl r) Dg (tl v)) as [k Hk]. exists (- k). lia.
Qed.

Lemma normalize_ineq_ok rat r : r <> [] ->
  match normalize_ineq rat r with
  | Keep r' => length r' = length r /\ reduced rat r' /\ (forall v, admissible rat v -> (nonneg_on v r <-> nonneg_on v r')) /\
       forall v, 0 < hd 0 v -> nonneg_on v r' -> nonneg_on v r
  | Drop => forall v, 0 < hd 0 v -> nonneg_on v r
  | Contradiction => forall v, 0 < hd 0 v -> ~ nonneg_on v r
  end.
Proof.
  intros Hr. unfold normalize_ineq. pose proof (seq_gcd_ok (tl r)) as G. destruct (Z.eqb_spec (seq_gcd (tl r)) 0) as [E0|E0].
  - rewrite E0 in G. pose proof (dot_zero (tl r) (is_gcd_zero _ G)) as Z0. destruct (Z.ltb_spec (hd 0 r) 0) as [Eh|Eh].
    + intros v Hv. unfold nonneg_on. rewrite dot_hd_tl, Z0. nia.
    + intros v Hv. unfold nonneg_on. rewrite dot_hd_tl, Z0. nia.
  - destruct (row_gcd rat r Hr E0) as (g & -> & Hg & Gg & Dg). destruct (Z.eqb_spec g 1) as [E1|E1].
    + subst g. split; [reflexivity|]. split; [unfold reduced; destruct rat; exact Gg|]. split; [intros; reflexivity|]. intros; assumption.
    + destruct r as [|c r]; [congruence|]. cbn [hd tl] in *. split; [cbn; unfold seq_scale_down; rewrite map_length; reflexivity|].
      pose proof (dot_div g r ltac:(lia) Dg) as DD. split.
      { unfold reduced. destruct rat; [|apply gcd_scale; [lia|exact Gg]]. exact (gcd_scale g (c :: r) ltac:(lia) Gg). }
      pose proof (Z.div_mod c g ltac:(lia)) as DM. pose proof (Z.mod_pos_bound c g Hg) as MB. unfold fdiv_q, seq_scale_down, divexact. split.
      * intros v [Hp Hi]. unfold nonneg_on. rewrite (dot_hd_tl (c :: r)), (dot_hd_tl (c / g :: _)). cbn [hd tl]. rewrite <- DD. set (t := dot (map (fun x => x / g) r) (tl v)). destruct rat.
        -- assert (EM : c mod g = 0) by (apply Z.mod_divide; [lia|]; apply Gg; left; reflexivity). rewrite DM at 1. rewrite EM.
           replace ((g * (c / g) + 0) * hd 0 v + g * t) with (g * (c / g * hd 0 v + t)) by ring. clear - Hg. nia.
        -- rewrite (Hi eq_refl). set (q := c / g) in *. clear - DM MB Hg. nia.
      * intros v Hp. unfold nonneg_on. rewrite (dot_hd_tl (c :: r)), (dot_hd_tl (c / g :: _)). cbn [hd tl]. rewrite <- DD. set (t := dot (map (fun x => x / g) r) (tl v)). intros H. set (q := c / g) in *. clearbody q t. assert (0 <= g * (q * hd 0 v + t)) by nia. assert (0 <= (c mod g) * hd 0 v) by nia. replace (c * hd 0 v) with ((g * q + c mod g) * hd 0 v) by (rewrite <- DM; reflexivity). lia.
Qed.

Lemma rows_nth n l i : rows_of n l -> (i < length l)%nat -> length (nth i l []) = n.
Proof. intros H Hi. apply (proj1 (Forall_forall _ _) H). apply nth_In. exact Hi. Qed.
Lemma rows_ne n l i : (0 < n)%nat -> rows_of n l -> (i < length l)%nat -> nth i l [] <> [].
Proof. intros Hn H Hi E. pose proof (rows_nth n l i H Hi) as L. rewrite E in L. cbn in L. lia. Qed.

Definition reduced_from (rat : bool) (i : nat) (l : list (list Z)) : Prop := forall j, (i <= j < length l)%nat -> reduced rat (nth j l []).

Lemma normalize_eqs_ok rat n : (0 < n)%nat -> forall i l, (i <= length l)%nat -> rows_of n l -> reduced_from rat i l ->
  match normalize_eqs rat i l with
  | Some l' => rows_of n l' /\ reduced_from rat 0 l' /\ (length l' <= length l)%nat /\ forall v, Forall (zero_on v) l <-> Forall (zero_on v) l'
  | None => forall v, admissible rat v -> ~ Forall (zero_on v) l
  end.
Proof.
  intros Hn. induction i as [|i IH]; intros l Hi Hl Hr; cbn [normalize_eqs].
  - repeat split; auto.
  - pose proof (normalize_eq_ok rat (nth i l []) (rows_ne n l i Hn Hl ltac:(lia))) as N. destruct (normalize_eq rat (nth i l [])) as [r'| |].
    + destruct N as (L' & R' & g & Hg & Eg). specialize (IH (lset l i r')). rewrite lset_length in IH.
      assert (EQ : forall v, Forall (zero_on v) l <-> Forall (zero_on v) (lset l i r')).
      { intros v. rewrite (Forall_at _ l [] i) by lia. rewrite Forall_lset by lia. apply and_iff_compat_r. unfold zero_on. rewrite Eg. nia. }
      specialize (IH ltac:(lia)). destruct (normalize_eqs rat i (lset l i r')) as [l'|].
      * destruct IH as (A & B & C & D).
        -- unfold rows_of. rewrite Forall_lset by lia. split; [rewrite L'; apply rows_nth; [exact Hl|lia]|]. apply (Forall_at _ l [] i); [lia|exact Hl].
        -- intros j Hj. rewrite lset_length in Hj. rewrite nth_lset by lia. destruct (Nat.eqb_spec j i); [exact R'|]. apply Hr. lia.
        -- repeat split; try assumption; try lia; intros F; [apply D, EQ|apply EQ, D]; exact F.
      * intros v Hv. rewrite EQ. apply IH; [| |exact Hv].
        -- unfold rows_of. rewrite Forall_lset by lia. split; [rewrite L'; apply rows_nth; [exact Hl|lia]|]. apply (Forall_at _ l [] i); [lia|exact Hl].
        -- intros j Hj. rewrite lset_length in Hj. rewrite nth_lset by lia. destruct (Nat.eqb_spec j i); [exact R'|]. apply Hr. lia.
    + specialize (IH (ldrop l i)). rewrite ldrop_length in IH by lia. specialize (IH ltac:(lia)).
      assert (EQ : forall v, Forall (zero_on v) l <-> Forall (zero_on v) (ldrop l i)).
      { intros v. rewrite (Forall_at _ l [] i) by lia. pose proof (N v). tauto. }
      assert (P1 : rows_of n (ldrop l i)) by (apply (Forall_at _ l [] i); [lia|exact Hl]).
      assert (P2 : reduced_from rat i (ldrop l i)).
      { intros j Hj. rewrite ldrop_length in Hj by lia. rewrite nth_ldrop by lia. destruct (Nat.ltb_spec j i); [lia|]. apply Hr. lia. }
      specialize (IH P1 P2). destruct (normalize_eqs rat i (ldrop l i)) as [l'|].
      * destruct IH as (A & B & C & D). repeat split; try assumption; try lia; intros F; [apply D, EQ|apply EQ, D]; exact F.
      * intros v Hv. rewrite EQ. apply IH. exact Hv.
    + intros v Hv F. apply (N v Hv). apply (proj1 (Forall_forall _ _) F). apply nth_In. lia.
Qed.

Lemma normalize_ineqs_ok rat n : (0 < n)%nat -> forall i l, (i <= length l)%nat -> rows_of n l -> reduced_from rat i l ->
  match normalize_ineqs rat i l with
  | Some l' => rows_of n l' /\ reduced_from rat 0 l' /\ (length l' <= length l)%nat /\
      (forall v, admissible rat v -> (Forall (nonneg_on v) l <-> Forall (nonneg_on v) l')) /\
      (forall v, 0 < hd 0 v -> Forall (nonneg_on v) l' -> Forall (nonneg_on v) l)
  | None => forall v, admissible rat v -> ~ Forall (nonneg_on v) l
  end.
Proof.
  intros Hn. induction i as [|i IH]; intros l Hi Hl Hr; cbn [normalize_ineqs].
  - repeat split; auto.
  - pose proof (normalize_ineq_ok rat (nth i l []) (rows_ne n l i Hn Hl ltac:(lia))) as N. destruct (normalize_ineq rat (nth i l [])) as [r'| |].
    + destruct N as (L' & R' & N1 & N2). specialize (IH (lset l i r')). rewrite lset_length in IH. specialize (IH ltac:(lia)).
      assert (EQ : forall v, admissible rat v -> (Forall (nonneg_on v) l <-> Forall (nonneg_on v) (lset l i r'))).
      { intros v Hv. rewrite (Forall_at _ l [] i) by lia. rewrite Forall_lset by lia. apply and_iff_compat_r. apply N1. exact Hv. }
      assert (EQ2 : forall v, 0 < hd 0 v -> Forall (nonneg_on v) (lset l i r') -> Forall (nonneg_on v) l).
      { intros v Hv. rewrite (Forall_at _ l [] i) by lia. rewrite Forall_lset by lia. intros [A B]. split; [apply N2; assumption|exact B]. }
      assert (P1 : rows_of n (lset l i r')).
      { unfold rows_of. rewrite Forall_lset by lia. split; [rewrite L'; apply rows_nth; [exact Hl|lia]|]. apply (Forall_at _ l [] i); [lia|exact Hl]. }
      assert (P2 : reduced_from rat i (lset l i r')).
      { intros j Hj. rewrite lset_length in Hj. rewrite nth_lset by lia. destruct (Nat.eqb_spec j i); [exact R'|]. apply Hr. lia. }
      specialize (IH P1 P2). destruct (normalize_ineqs rat i (lset l i r')) as [l'|].
      * destruct IH as (A & B & C & D & E). split; [exact A|]. split; [exact B|]. split; [exact C|]. split.
        -- intros v Hv. rewrite (EQ v Hv). apply D. exact Hv.
        -- intros v Hv F. apply EQ2; [exact Hv|]. apply E; assumption.
      * intros v Hv. rewrite (EQ v Hv). apply IH. exact Hv.
    + specialize (IH (drop_swap l i)). rewrite drop_swap_length in IH. specialize (IH ltac:(lia)).
      assert (EQ : forall v, 0 < hd 0 v -> (Forall (nonneg_on v) l <-> Forall (nonneg_on v) (drop_swap l i))).
      { intros v Hv. rewrite Forall_drop_swap by lia. rewrite (Forall_at _ l [] i) by lia. pose proof (N v Hv). tauto. }
      assert (P1 : rows_of n (drop_swap l i)) by (apply Forall_drop_swap; [lia|]; apply (Forall_at _ l [] i); [lia|exact Hl]).
      assert (P2 : reduced_from rat i (drop_swap l i)).
      { intros j Hj. rewrite drop_swap_length in Hj. rewrite nth_drop_swap by lia. destruct (Nat.eqb_spec j i); apply Hr; lia. }
      specialize (IH P1 P2). destruct (normalize_ineqs rat i (drop_swap l i)) as [l'|].
      * destruct IH as (A & B & C & D & E). split; [exact A|]. split; [exact B|]. split; [lia|]. split.
        -- intros v Hv. rewrite EQ by apply Hv. apply D. exact Hv.
        -- intros v Hv F. apply EQ; [exact Hv|]. apply E; assumption.
      * intros v Hv. rewrite EQ by apply Hv. apply IH. exact Hv.
    + intros v Hv F. apply (N v (proj1 Hv)). apply (proj1 (Forall_forall _ _) F). apply nth_In. lia.
Qed.


Lemma set_to_empty_wf b : wf b -> wf (set_to_empty b).
Proof.
  intros H. unfold set_to_empty. destruct (_ && _); [exact H|]. repeat split; cbn; try constructor; try constructor.
  cbn. rewrite repeat_length. unfold total, nvar, ndiv. cbn. lia.
Qed.
Lemma set_to_empty_flag b : b_empty (set_to_empty b) = true.
Proof. unfold set_to_empty. destruct (b_empty b && _) eqn:E; [apply andb_true_iff in E; apply E|reflexivity]. Qed.
Lemma set_to_empty_none b v : b_empty b = false -> 0 < hd 0 v -> ~ system (b_eq (set_to_empty b)) (b_ineq (set_to_empty b)) v.
Proof.
  intros F Hv. unfold set_to_empty. rewrite F. cbn. intros [A _]. inversion A as [|? ? A1 _]; subst. unfold zero_on in A1. rewrite dot_hd_tl in A1. cbn [hd tl] in A1. rewrite dot_repeat0 in A1. lia.
Qed.


Lemma normalize_constraints_ok b : wf b ->
  let b' := normalize_constraints b in
  (forall p, length p = (1 + nvar b)%nat -> admissible (b_rat b) p -> (points b p <-> points b' p)) /\
  (forall v, 0 < hd 0 v -> b_empty b' = false -> system (b_eq b') (b_ineq b') v -> system (b_eq b) (b_ineq b) v) /\
  (b_empty b' = false -> Forall (reduced (b_rat b)) (b_eq b') /\ Forall (reduced (b_rat b)) (b_ineq b') /\ b_div b' = b_div b) /\
  wf b' /\ nvar b' = nvar b /\ b_rat b' = b_rat b.
Proof.
  intros W. pose proof W as (We & Wi & Wd). cbn zeta. unfold normalize_constraints. pose proof (normalize_eqs_ok (b_rat b) (1 + total b) ltac:(lia) (length (b_eq b)) (b_eq b) ltac:(lia) We ltac:(intros j Hj; lia)) as NE.
  assert (RF : forall (l : list (list Z)) rat, reduced_from rat 0 l -> Forall (reduced rat) l).
  { intros l rat H. apply Forall_forall. intros x Hx. destruct (In_nth l x [] Hx) as (j & Hj & <-). apply H. lia. }
  assert (EMP : (forall v, admissible (b_rat b) v -> ~ system (b_eq b) (b_ineq b) v) -> forall c, nvar c = nvar b -> b_rat c = b_rat b -> wf c ->
     let b' := set_to_empty c in
     (forall p, length p = (1 + nvar b)%nat -> admissible (b_rat b) p -> (points b p <-> points b' p)) /\
     (forall v, 0 < hd 0 v -> b_empty b' = false -> system (b_eq b') (b_ineq b') v -> system (b_eq b) (b_ineq b) v) /\
     (b_empty b' = false -> Forall (reduced (b_rat b)) (b_eq b') /\ Forall (reduced (b_rat b)) (b_ineq b') /\ b_div b' = b_div b) /\
     wf b' /\ nvar b' = nvar b /\ b_rat b' = b_rat b).
  { intros N c C1 C2 C3. cbn zeta. pose proof (set_to_empty_flag c) as FL. split; [|split; [|split; [|split]]].
    - intros p Lp Hp. unfold points, member. rewrite FL. split; [|intros [E _]; discriminate]. intros (_ & e & _ & S1). exfalso. apply (N (p ++ e)); [|exact S1].
      destruct p; [cbn in Lp; lia|exact Hp].
    - intros v _ E. congruence.
    - intros E. congruence.
    - apply set_to_empty_wf. exact C3.
    - unfold set_to_empty. destruct (_ && _); split; try assumption; exact C1. }
  destruct (normalize_eqs (b_rat b) (length (b_eq b)) (b_eq b)) as [le|].
  2:{ apply EMP; auto. intros v Hv [A _]. exact (NE v Hv A). }
  destruct NE as (A & B & C & D). cbn [b_rat b_ineq set_eq].
  pose proof (normalize_ineqs_ok (b_rat b) (1 + total b) ltac:(lia) (length (b_ineq b)) (b_ineq b) ltac:(lia) Wi ltac:(intros j Hj; lia)) as NI.
  destruct (normalize_ineqs (b_rat b) (length (b_ineq b)) (b_ineq b)) as [li|].
  2:{ apply EMP; try reflexivity; [intros v Hv [_ I]; exact (NI v Hv I)|]. repeat split; assumption. }
  destruct NI as (A' & B' & C' & D' & E'). cbn [b_empty b_eq b_ineq b_div set_eq set_ineq b_rat]. split; [|split; [|split; [|split; [|split]]]].
  - intros p Lp Hp. unfold points, member, described. cbn. apply and_iff_compat_l. split; intros (e & Le & S1); exists e; (split; [exact Le|]).
    all: assert (Av : admissible (b_rat b) (p ++ e)) by (destruct p; [cbn in Lp; lia|exact Hp]).
    all: destruct S1 as [S1 S2]; split; [apply D; exact S1|apply (D' _ Av); exact S2].
  - intros v Hv _ [S1 S2]. split; [apply D; exact S1|apply E'; assumption].
  - intros _. repeat split; apply RF; assumption.
  - repeat split; assumption.
  - reflexivity.
  - reflexivity.
Qed.
