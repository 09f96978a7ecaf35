(** Sorting and removing integer divisions that do not refer to each other. *)
From Coq Require Import ZArith List Bool QArith Arith Lia ZifyBool Setoid Permutation.
From Verif Require Import SeqModel SeqSpec SeqProofs MatModel ValModel LocalModel LocalSpec LocalProofs BMapModel BMapLists SpaceModel PolyModel PolySpec PolyBase PolyOps PolyOps2 PolyThms QpModel QpSpec QpProofs QpReduce QpReduce2.
From Verif Require RdivCoal SimpDrop.
Import ListNotations.
Open Scope Z_scope.

(** the value of an integer division in terms of the variables *)
Definition fval (d : nat) (v : list Z) (r : list Z) : Z := dot (firstn (1 + d) (skipn 1 r)) v / nth 0 r 0.
Definition frow (d n : nat) (r : list Z) : Prop := length r = (2 + d + n)%nat /\ 0 < nth 0 r 0 /\ forall k, (2 + d <= k)%nat -> nth k r 0 = 0.
Definition fdivs (d n : nat) (M : mat) : Prop := length M = n /\ forall j, (j < n)%nat -> frow d n (nth j M []).
Lemma fdivs_ok d n M : fdivs d n M <-> divs d n M /\ flat d M.
Proof.
  split.
  - intros (L & H). split; [split; [exact L|]; intros j Hj; destruct (H j Hj) as (A & B & C); split; [exact A|split; [exact B|intros k Hk; apply C; lia]]|].
    intros j k Hk. destruct (Nat.lt_ge_cases j n) as [Hj|Hj]; [apply H; assumption|]. rewrite nth_overflow with (n := j) by lia. destruct k; reflexivity.
  - intros ((L & H) & F). split; [exact L|]. intros j Hj. destruct (H j Hj) as (A & B & _). split; [exact A|]. split; [exact B|]. intros k Hk. apply F. exact Hk.
Qed.
Lemma fvals d n M w : fdivs d n M -> length w = (1 + d + n)%nat -> nth 0 w 0 = 1 -> (vals d n M w <-> forall j, (j < n)%nat -> nth (1 + d + j) w 0 = fval d (firstn (1 + d) w) (nth j M [])).
Proof.
  intros (L & H) Lw W0. assert (E : forall j, (j < n)%nat -> fval d (firstn (1 + d) w) (nth j M []) = dot (skipn 1 (nth j M [])) w / nth 0 (nth j M []) 0).
  { intros j Hj. unfold fval. f_equal. symmetry. apply dot_prefix. intros k Hk. rewrite nth_skip1. apply (H j Hj). lia. }
  split; [intros (_ & _ & V) j Hj; rewrite E by exact Hj; apply V; exact Hj|]. intros V. split; [exact Lw|]. split; [exact W0|]. intros j Hj. rewrite <- E by exact Hj. apply V. exact Hj.
Qed.
Lemma fval_ext d v r r' : (forall k, (k < 2 + d)%nat -> nth k r 0 = nth k r' 0) -> length r = length r' \/ (2 + d <= length r)%nat /\ (2 + d <= length r')%nat -> fval d v r = fval d v r'.
Proof.
  intros H L. unfold fval. rewrite (H 0%nat) by lia. f_equal. f_equal. apply list_eq_nth; [rewrite !firstn_length, !skipn_length; lia|]. intros k Hk. rewrite firstn_length in Hk. rewrite !nth_first by lia. rewrite !nth_skip1. apply H. lia.
Qed.
(** equal values of all integer divisions *)
Definition feq (d : nat) (r r' : list Z) : Prop := forall v, fval d v r = fval d v r'.

(** ** the second loop of sort_divs *)
Lemma sort_move_ok n (M0 : mat) : forall arr pre i M pos at_, length pre = i -> length (pre ++ arr) = n -> NoDup (pre ++ arr) -> Forall (fun a => (a < n)%nat) (pre ++ arr) ->
  length M = n -> length pos = n -> length at_ = n ->
  (forall k, (k < n)%nat -> (nth k at_ 0 < n)%nat /\ nth (nth k at_ 0%nat) pos 0%nat = k /\ nth k M [] = nth (nth k at_ 0%nat) M0 []) ->
  (forall a, (a < n)%nat -> (nth a pos 0 < n)%nat /\ nth (nth a pos 0%nat) at_ 0%nat = a) ->
  (forall k, (k < i)%nat -> nth k at_ 0%nat = nth k pre 0%nat) ->
  length (sort_move arr i M pos at_) = n /\ forall k, (k < n)%nat -> nth k (sort_move arr i M pos at_) [] = nth (nth k (pre ++ arr) 0%nat) M0 [].
Proof.
  induction arr as [|a arr IH]; intros pre i M pos at_ Li Ln ND F LM Lp La HA HP Pre.
  - cbn [sort_move]. split; [exact LM|]. rewrite app_nil_r in *. intros k Hk. destruct (HA k Hk) as (_ & _ & ->). rewrite Pre by lia. reflexivity.
  - cbn [sort_move]. cbv zeta. assert (App : (pre ++ a :: arr = (pre ++ [a]) ++ arr)%list) by (rewrite <- app_assoc; reflexivity). assert (Ha : (a < n)%nat) by (rewrite Forall_forall in F; apply F; apply in_or_app; right; left; reflexivity).
    assert (Hi : (i < n)%nat) by (rewrite app_length in Ln; cbn in Ln; lia). destruct (HP a Ha) as (Hp & Ep). set (p := nth a pos 0%nat) in *.
    assert (Ge : (i <= p)%nat). { destruct (Nat.le_gt_cases i p) as [|Hl]; [assumption|]. exfalso. rewrite Pre in Ep by exact Hl. apply NoDup_remove_2 in ND. apply ND. apply in_or_app. left. rewrite <- Ep. apply nth_In. lia. }
    rewrite App in Ln, ND, F |- *. destruct (Nat.eqb_spec p i) as [E|Ne].
    + apply IH; try assumption; [rewrite app_length; cbn; lia|]. intros k Hk. destruct (Nat.eq_dec k i) as [->|]; [rewrite app_nth2 by lia; rewrite Li, Nat.sub_diag; cbn; rewrite <- E; exact Ep|]. rewrite app_nth1 by lia. apply Pre. lia.
    + set (b := nth i at_ 0%nat) in *. destruct (HA i Hi) as (Hb & Eb & Mi). fold b in Hb, Eb, Mi. destruct (HA p Hp) as (_ & _ & Mp). rewrite Ep in Mp. assert (Nab : a <> b) by (intros E; apply Ne; unfold p; rewrite E; exact Eb).
      apply IH; try assumption; rewrite ?lswap_length, ?lset_length; try assumption; [rewrite app_length; cbn; lia| | |].
      * intros k Hk. rewrite nth_lswap by lia. rewrite (nth_lset (lset at_ p b)) by (rewrite lset_length; lia). rewrite (nth_lset at_) by lia.
        destruct (Nat.eqb_spec k i) as [->|Ki]; [destruct (Nat.eqb_spec i p); [lia|]|destruct (Nat.eqb_spec k p) as [->|Kp]].
        -- split; [exact Ha|]. rewrite nth_lset by (rewrite lset_length; lia). rewrite Nat.eqb_refl. split; [reflexivity|exact Mp].
        -- split; [exact Hb|]. rewrite nth_lset by (rewrite lset_length; lia). destruct (Nat.eqb_spec b a); [lia|]. rewrite nth_lset by lia. rewrite Nat.eqb_refl. split; [reflexivity|exact Mi].
        -- destruct (HA k Hk) as (X1 & X2 & X3). split; [exact X1|]. split; [|exact X3]. rewrite nth_lset by (rewrite lset_length; lia). destruct (Nat.eqb_spec (nth k at_ 0%nat) a) as [E|_]; [exfalso; apply Kp; unfold p; rewrite <- E; symmetry; exact X2|]. rewrite nth_lset by lia. destruct (Nat.eqb_spec (nth k at_ 0%nat) b) as [E|_]; [exfalso; apply Ki; rewrite <- X2, E; exact Eb|]. exact X2.
      * intros c Hc. rewrite nth_lset by (rewrite lset_length; lia). destruct (Nat.eqb_spec c a) as [->|Ca]; [split; [exact Hi|]; rewrite nth_lset by (rewrite lset_length; lia); rewrite Nat.eqb_refl; reflexivity|].
        rewrite nth_lset by lia. destruct (Nat.eqb_spec c b) as [->|Cb]; [split; [exact Hp|]; rewrite nth_lset by (rewrite lset_length; lia); destruct (Nat.eqb_spec p i); [lia|]; rewrite nth_lset by lia; rewrite Nat.eqb_refl; reflexivity|].
        destruct (HP c Hc) as (X1 & X2). split; [exact X1|]. rewrite nth_lset by (rewrite lset_length; lia). destruct (Nat.eqb_spec (nth c pos 0%nat) i) as [E|_]; [exfalso; apply Cb; unfold b; rewrite <- E; symmetry; exact X2|]. rewrite nth_lset by lia. destruct (Nat.eqb_spec (nth c pos 0%nat) p) as [E|_]; [exfalso; apply Ca; rewrite <- X2, E; exact Ep|]. exact X2.
      * intros k Hk. rewrite nth_lset by (rewrite lset_length; lia). destruct (Nat.eqb_spec k i) as [->|Ki]; [rewrite app_nth2 by lia; rewrite Li, Nat.sub_diag; reflexivity|]. rewrite nth_lset by lia. destruct (Nat.eqb_spec k p); [lia|]. rewrite app_nth1 by lia. apply Pre. lia.
Qed.

(** ** the third loop of sort_divs *)
Lemma drop_frow d m t r : frow d m r -> (t < m)%nat -> frow d (m - 1) (ldrop r (2 + d + t)) /\ feq d (ldrop r (2 + d + t)) r.
Proof.
  intros (L & P & Z0) Ht. split; [split; [rewrite ldrop_length by lia; lia|]; split; [change (2 + d + t)%nat with (S (1 + d + t)); rewrite nth0_drop; exact P|]|].
  - intros k Hk. rewrite nth_drop_z. destruct (Nat.ltb k (2 + d + t)); apply Z0; lia.
  - intros v. apply fval_ext; [|right; rewrite ldrop_length by lia; lia]. intros k Hk. rewrite nth_drop_z. destruct (Nat.ltb_spec k (2 + d + t)); [reflexivity|lia].
Qed.
Lemma upd_frow d m t r : frow d m r -> (2 + d <= t)%nat -> frow d m (zupd r t 0) /\ feq d (zupd r t 0) r.
Proof.
  intros (L & P & Z0) Ht. split; [split; [rewrite zupd_length; exact L|]; split; [rewrite nth_zupd; destruct (Nat.eqb_spec 0 t); [lia|exact P]|]|].
  - intros k Hk. rewrite nth_zupd. destruct (_ && _); [reflexivity|apply Z0; exact Hk].
  - intros v. apply fval_ext; [|left; apply zupd_length]. intros k Hk. rewrite nth_zupd. destruct (Nat.eqb_spec k t); [lia|reflexivity].
Qed.
Definition merge_inv (d n : nat) (N : mat) (pre : list nat) (i skip : nat) (M : mat) (r : list nat) : Prop :=
  length pre = i /\ (i <= n)%nat /\ fdivs d (n - skip) M /\ (skip <= i)%nat /\ (0 < i -> skip < i)%nat /\
  (forall k, (i <= k < n)%nat -> feq d (nth (k - skip) M []) (nth k N [])) /\
  (forall k, (k < i)%nat -> exists t, (t < i - skip)%nat /\ nth (d + nth k pre 0)%nat r 0%nat = (d + t)%nat /\ feq d (nth t M []) (nth k N [])) /\
  (forall u, (u < d)%nat -> nth u r 0%nat = u) /\ length r = (d + n)%nat.
Lemma sort_merge_ok d n N : forall arr pre i skip M r, NoDup (pre ++ arr) -> Forall (fun a => (a < n)%nat) (pre ++ arr) -> length (pre ++ arr) = n -> merge_inv d n N pre i skip M r ->
  exists skip', merge_inv d n N (pre ++ arr) n skip' (fst (sort_merge d arr i skip M r)) (snd (sort_merge d arr i skip M r)).
Proof.
  induction arr as [|a arr IH]; intros pre i skip M r ND F Ln I.
  - cbn [sort_merge fst snd]. rewrite app_nil_r in *. pose proof (proj1 I). replace n with i in * by lia. exists skip. exact I.
  - cbn [sort_merge]. assert (App : (pre ++ a :: arr = (pre ++ [a]) ++ arr)%list) by (rewrite <- app_assoc; reflexivity). assert (Ha : (a < n)%nat) by (rewrite Forall_forall in F; apply F; apply in_or_app; right; left; reflexivity).
    destruct I as (Li & Hin & (LM & HM) & Hs & Hs1 & Rest & Done & Id & Lr). assert (Hi : (i < n)%nat) by (rewrite app_length in Ln; cbn in Ln; lia). set (t0 := (i - skip)%nat) in *.
    assert (Na : ~ List.In a pre) by (apply NoDup_remove_2 in ND; intros X; apply ND; apply in_or_app; left; exact X).
    assert (Rn : forall x k, (k < i)%nat -> nth (d + nth k pre 0)%nat (lset r (d + a) x) 0%nat = nth (d + nth k pre 0)%nat r 0%nat). { intros x k Hk. rewrite nth_lset by lia. destruct (Nat.eqb_spec (d + nth k pre 0%nat) (d + a)) as [E|]; [|reflexivity]. exfalso. apply Na. replace a with (nth k pre 0%nat) by lia. apply nth_In. lia. }
    assert (Ra : forall x, nth (d + nth i (pre ++ [a]) 0)%nat (lset r (d + a) x) 0%nat = x). { intros x. rewrite app_nth2 by lia. rewrite Li, Nat.sub_diag. cbn [nth]. rewrite nth_lset by lia. rewrite Nat.eqb_refl. reflexivity. }
    assert (Rp : forall k, (k < i)%nat -> nth k (pre ++ [a]) 0%nat = nth k pre 0%nat) by (intros k Hk; apply app_nth1; lia).
    assert (Ru : forall x u, (u < d)%nat -> nth u (lset r (d + a) x) 0%nat = u). { intros x u Hu. rewrite nth_lset by lia. destruct (Nat.eqb_spec u (d + a)); [lia|]. apply Id. exact Hu. }
    rewrite App in ND, F, Ln |- *. destruct (Nat.ltb 0 i && seq_eq (nth (t0 - 1) M []) (nth t0 M [])) eqn:Eq.
    + apply andb_true_iff in Eq as (Ei & Es). apply Nat.ltb_lt in Ei. specialize (Hs1 Ei). assert (H1 : (t0 - 1 < n - skip)%nat) by lia. assert (H0 : (t0 < n - skip)%nat) by lia.
      apply seq_eq_ok in Es; [|destruct (HM _ H1) as (A & _), (HM _ H0) as (B & _); lia].
      set (c := (2 + d + t0)%nat). set (M1 := drop_col (col_add (drop_row M t0) (c - 1) c) c).
      assert (LM1 : length M1 = (n - S skip)%nat) by (unfold M1, drop_col, col_add, drop_row; rewrite !map_length, ldrop_length by lia; lia).
      assert (N1 : forall t, (t < n - S skip)%nat -> frow d (n - S skip) (nth t M1 []) /\ feq d (nth t M1 []) (nth (if Nat.ltb t t0 then t else S t) M [])).
      { intros t Ht. unfold M1, drop_col, col_add. rewrite nth_map_nil by (unfold drop_row; rewrite map_length, ldrop_length by lia; lia). rewrite (nth_map_nil (fun r => zupd r (c - 1) (nth (c - 1) r 0 + nth c r 0))) by (unfold drop_row; rewrite ldrop_length by lia; lia). unfold drop_row. rewrite nth_ldrop by lia.
        replace (if Nat.ltb t t0 then nth t M [] else nth (S t) M []) with (nth (if Nat.ltb t t0 then t else S t) M []) by (destruct (Nat.ltb t t0); reflexivity). set (u := if Nat.ltb t t0 then t else S t). assert (Hu : (u < n - skip)%nat) by (unfold u; destruct (Nat.ltb t t0); lia).
        pose proof (HM u Hu) as Fu. pose proof Fu as (_ & _ & Zu). replace (nth (c - 1) (nth u M []) 0 + nth c (nth u M []) 0) with 0 by (rewrite !Zu by (unfold c; lia); reflexivity).
        destruct (upd_frow d (n - skip) (c - 1) (nth u M []) Fu ltac:(unfold c; lia)) as (F1 & E1). destruct (drop_frow d (n - skip) t0 _ F1 H0) as (F2 & E2). fold c in F2, E2. replace (n - skip - 1)%nat with (n - S skip)%nat in F2 by lia. split; [exact F2|]. intros v. rewrite (E2 v). apply E1. }
      apply IH; try assumption. split; [rewrite app_length; cbn; lia|]. split; [lia|]. split; [split; [exact LM1|intros j Hj; apply N1; exact Hj]|]. split; [lia|]. split; [lia|]. split; [|split; [|split; [apply Ru|rewrite lset_length; exact Lr]]].
      * intros k Hk v. destruct (N1 (k - S skip)%nat ltac:(lia)) as (_ & E1). rewrite E1. destruct (Nat.ltb_spec (k - S skip) t0); [lia|]. replace (S (k - S skip)) with (k - skip)%nat by lia. apply Rest. lia.
      * intros k Hk. destruct (Nat.eq_dec k i) as [->|].
        -- exists (t0 - 1)%nat. split; [lia|]. split; [rewrite Ra; lia|]. intros v. destruct (N1 (t0 - 1)%nat ltac:(lia)) as (_ & E1). rewrite E1. destruct (Nat.ltb_spec (t0 - 1) t0); [|lia]. rewrite Es. apply Rest. lia.
        -- destruct (Done k ltac:(lia)) as (t & Ht & Et & Ft). exists t. destruct (Nat.eq_dec t t0) as [->|]; [exfalso; lia|].
           split; [lia|]. split; [rewrite Rp, Rn by lia; exact Et|]. intros v. destruct (N1 t ltac:(lia)) as (_ & E1). rewrite E1. destruct (Nat.ltb_spec t t0); [apply Ft|lia].
    + apply IH; try assumption. split; [rewrite app_length; cbn; lia|]. split; [lia|]. split; [split; assumption|]. split; [lia|]. split; [lia|]. split; [intros k Hk; apply Rest; lia|]. split; [|split; [apply Ru|rewrite lset_length; exact Lr]].
      intros k Hk. destruct (Nat.eq_dec k i) as [->|].
      * exists t0. split; [lia|]. split; [rewrite Ra; reflexivity|]. apply Rest. lia.
      * destruct (Done k ltac:(lia)) as (t & Ht & Et & Ft). exists t. split; [lia|]. split; [rewrite Rp, Rn by lia; exact Et|exact Ft].
Qed.
