(** C42: the dependence analysis finds the last write. *)
From Coq Require Import ZArith List Bool Arith Lia Permutation.
From Verif Require Import MatModel FlowModel FlowSpec FlowBase FlowProofs FlowFinal.
Import ListNotations.
Open Scope Z_scope.

(** the sources that are passed in are those that are analysed *)
Theorem C42_sources {D} (sink : @lmap D) elem max l acc : access_info_alloc sink elem max = Ok acc -> Z.of_nat (length l) <= max ->
  exists acc', add_all (Ok acc) l = Ok acc' /\ a_sink acc' = sink /\ a_elem acc' = elem /\
  a_must acc' = map fst (filter snd l) /\ Permutation (a_may acc') (map fst (filter (fun x => negb (snd x)) l)).
Proof. exact (alloc_add sink elem max l acc). Qed.

(** isl_access_info_compute_flow; missing for the full claim: the functions on unions
    (isl_union_access_info_compute_flow and what follows in isl_flow.c) and the
    callbacks restrict_fn and coscheduled *)
Theorem C42_flow_partial {D} lb pe spe (pos : D -> list Z) hash alloc (acc : info) : sound_empty pe -> sound_set_empty spe ->
  problem_ok pos lb (a_elem acc) (a_sink acc) (a_must acc) (a_may acc) ->
  (exists must f, compute_flow lb pe spe hash alloc acc = Ok (must, f) /\ Permutation (a_must acc) must /\ textual pos (a_sink acc) must /\
    (forall j w s, f_must f j w s <-> exists e, must_dep pos (a_sink acc) must (a_may acc) j w s e) /\
    (forall j w s, f_maym f j w s <-> exists e, maym_dep pos (a_sink acc) must (a_may acc) j w s e) /\
    (forall i v s, f_may f i v s <-> exists e, may_dep pos (a_sink acc) must (a_may acc) i v s e) /\
    (forall s e, get_no_source (l_dim (a_sink acc)) f true s e <-> must_no pos (a_sink acc) must (a_may acc) s e) /\
    (forall s e, get_no_source (l_dim (a_sink acc)) f false s e <-> may_no pos (a_sink acc) must (a_may acc) s e)) \/
  (alloc = false /\ compute_flow lb pe spe hash alloc acc = Null).
Proof. exact (compute_flow_ok lb pe spe pos hash alloc acc). Qed.

(** the last write is unique, and it is reported unless there is none *)
Theorem C42_unique {D} (pos : D -> list Z) sink must j w j' w' s e : last pos sink must j w s e -> last pos sink must j' w' s e -> j = j' /\ w = w'.
Proof. exact (last_unique pos sink must j w j' w' s e). Qed.
Theorem C42_complete {D} lb (pos : D -> list Z) elem sink must may s e : problem_ok pos lb elem sink must may -> l_map sink s e ->
  (exists j w, must_dep pos sink must may j w s e \/ maym_dep pos sink must may j w s e) \/ must_no pos sink must may s e \/ may_no pos sink must may s e.
Proof. exact (sink_cases lb pos elem sink must may s e). Qed.

(** Example:
      for (i = 0; i < 10; ++i) a[i] = ...;       init
      for (i = 0; i < 5; ++i) a[i] = ...;        over
      if (...) a[7] = ...;                       cond
      for (i = 0; i < 12; ++i) ... = a[i];       read *)
Inductive stmt := init | over | cond | read.
Definition ex_pos (s : stmt) : list Z := match s with init => [0; 0] | over => [1; 0] | cond => [2] | read => [3; 0] end.
Definition ex_lb (s t : stmt) : Z := level (ex_pos s) (ex_pos t).
Definition loop (n : Z) : rel := fun x e => exists i, 0 <= i < n /\ x = [i] /\ e = [i].
Definition s_read := mkl (loop 12) 1 read.
Definition s_init := mkl (loop 10) 1 init.
Definition s_over := mkl (loop 5) 1 over.
Definition s_cond := mkl (fun x e => x = [] /\ e = [7]) 0 cond.
Definition ex_acc := mki s_read 1 3 [s_over; s_init] [s_cond].
Example ex_level : ex_lb init over = 1 /\ ex_lb over init = 0 /\ ex_lb init init = 2 /\ ex_lb cond read = 1.
Proof. repeat split. Qed.
Example ex_add : add_all (access_info_alloc s_read 1 3) [(s_over, true); (s_cond, false); (s_init, true)] = Ok ex_acc.
Proof. reflexivity. Qed.
Lemma loop_last n : has_last (fun w => exists e, loop n w e).
Proof.
  apply (has_last_finite _ 1 (map (fun i => [Z.of_nat i]) (seq 0 (Z.to_nat n)))). intros w (e & i & Hi & -> & _). split; [|reflexivity]. apply in_map_iff. exists (Z.to_nat i). split; [f_equal; lia|]. apply in_seq. lia.
Qed.
Lemma has_last_sub (A B : vset) : (forall w, B w -> A w) -> has_last A -> has_last B.
Proof. intros H HA P (w & Bw & Pw). destruct (HA (fun w => B w /\ P w)) as (w1 & A1 & (B1 & P1) & M); [exists w; auto|]. exists w1. split; [exact B1|]. split; [exact P1|]. intros w' B' P'. apply M; auto. Qed.
Example ex_ok : problem_ok ex_pos ex_lb 1 s_read [s_over; s_init] [s_cond].
Proof.
  assert (L : forall n d, length (ex_pos d) = 2%nat -> access_ok ex_pos 1 (mkl (loop n) 1 d)) by (intros n d H; split; [exact H|]; intros x e (i & _ & -> & ->); auto).
  constructor.
  - intros d d'. split; [reflexivity|]. destruct d, d'; try (right; reflexivity); left; exists 0%nat; cbn; repeat split; try lia.
  - apply L. reflexivity.
  - intros a [<-|[<-|[]]]; (split; [apply L; reflexivity|]); intros e; (eapply has_last_sub; [|apply loop_last]); intros w H; exists e; exact H.
  - intros a [<-|[]]. split; [reflexivity|]. intros x e (-> & ->). auto.
  - intros [|[|i]] [|[|j]] Hi Hj N; cbn in Hi, Hj; try lia; exists 0%nat; cbn; repeat split; lia.
Qed.
(** a[3] was last written by "over", a[8] by "init", and a[7] by "init" or "cond";
    nothing writes a[11] *)
Lemma ex_run : exists must f, compute_flow ex_lb (fun _ => false) (fun _ => false) (fun _ => 0) true ex_acc = Ok (must, f) /\
  (exists j, nth j must s_read = s_over /\ f_must f j [3] [3]) /\ (exists j, nth j must s_read = s_init /\ f_must f j [8] [8] /\ f_maym f j [7] [7] /\ ~ f_must f j [3] [3]) /\
  f_may f 0%nat [] [7] /\ get_no_source 1 f true [11] [11].
Proof.
  destruct (C42_flow_partial ex_lb (fun _ => false) (fun _ => false) ex_pos (fun _ => 0) true ex_acc) as [(must & f & E & P & T & R1 & R2 & R3 & R4 & R5)|(H & _)]; [intros m H; discriminate|intros m H; discriminate|exact ex_ok| |discriminate].
  exists must, f. split; [exact E|]. clear E. cbn [ex_acc a_must a_may a_sink] in *.
  assert (M : must = [s_init; s_over]).
  { assert (Len : length must = 2%nat) by (rewrite <- (Permutation_length P); reflexivity). destruct must as [|a [|b [|c r]]]; try discriminate Len. apply Permutation_length_2_inv in P.
    destruct P as [P|P]; injection P as -> ->; [|reflexivity]. exfalso. destruct (T 0%nat 1%nat ltac:(cbn; lia)) as (i & H1 & H2 & H3 & H4). cbn in H1, H2, H3, H4. destruct i as [|[|i]]; cbn in H3, H4; try lia; discriminate. }
  subst must.
  assert (C0 : forall w s e, candidate ex_pos s_read [s_init; s_over] 0 w s e <-> loop 10 w e /\ earlier (time [0; 0] w) (time [3; 0] s)) by (intros w s e; unfold candidate, before, moment; cbn; split; [tauto|intros (H1 & H2); split; [lia|auto]]).
  assert (C1 : forall w s e, candidate ex_pos s_read [s_init; s_over] 1 w s e <-> loop 5 w e /\ earlier (time [1; 0] w) (time [3; 0] s)) by (intros w s e; unfold candidate, before, moment; cbn; split; [tauto|intros (H1 & H2); split; [lia|auto]]).
  assert (C2 : forall j w s e, candidate ex_pos s_read [s_init; s_over] j w s e -> j = 0%nat \/ j = 1%nat) by (intros j w s e (H & _); cbn in H; lia).
  assert (Cy : forall i v s e, candidate ex_pos s_read [s_cond] i v s e -> v = [] /\ e = [7]) by (intros i v s e (H & H1 & _); cbn in H; destruct i; [exact H1|lia]).
  assert (Te : forall a b x y, a < b -> earlier (time [a; 0] [x]) (time [b; 0] [y])) by (intros a b x y H; cbn; apply earlier_0, H).
  assert (L3 : last ex_pos s_read [s_init; s_over] 1 [3] [3] [3]).
  { split; [apply C1; split; [exists 3; repeat split; lia|apply Te; lia]|]. intros j' w' Hc. destruct (C2 _ _ _ _ Hc) as [-> | ->].
    - right. apply C0 in Hc. destruct Hc as ((i & _ & -> & _) & _). exact (Te 0 1 _ _ ltac:(lia)).
    - left. apply C1 in Hc. destruct Hc as ((i & _ & -> & Q) & _). injection Q as ->. auto. }
  assert (L0 : forall x, 5 <= x < 10 -> last ex_pos s_read [s_init; s_over] 0 [x] [x] [x]).
  { intros x Hx. split; [apply C0; split; [exists x; repeat split; lia|apply Te; lia]|]. intros j' w' Hc. destruct (C2 _ _ _ _ Hc) as [-> | ->].
    - left. apply C0 in Hc. destruct Hc as ((i & _ & -> & Q) & _). injection Q as ->. auto.
    - apply C1 in Hc. destruct Hc as ((i & Hi & _ & Q) & _). injection Q as ->. lia. }
  assert (Y7 : candidate ex_pos s_read [s_cond] 0 [] [7] [7]) by (split; [cbn; lia|]; split; [split; reflexivity|]; apply (earlier_0 2); lia).
  assert (F7 : forall j w, (j < 2)%nat -> length w = 1%nat -> follows ex_pos s_read [s_init; s_over] [s_cond] 0 [] j w) by (intros j [|x [|]] Hj Hw; try discriminate; destruct j as [|[|j]]; [|  |lia]; cbn; apply earlier_0; lia).
  split; [|split; [|split]].
  - exists 1%nat. split; [reflexivity|]. apply R1. exists [3]. split; [exists 3; repeat split; lia|]. split; [exact L3|]. intros (i & v & Hc & _). apply Cy in Hc. destruct Hc as (_ & Hc). discriminate.
  - exists 0%nat. split; [reflexivity|]. split; [|split].
    + apply R1. exists [8]. split; [exists 8; repeat split; lia|]. split; [apply L0; lia|]. intros (i & v & Hc & _). apply Cy in Hc. destruct Hc as (_ & Hc). discriminate.
    + apply R2. exists [7]. split; [exists 7; repeat split; lia|]. split; [apply L0; lia|]. exists 0%nat, []. split; [exact Y7|apply F7; [lia|reflexivity]].
    + intros H. apply R1 in H. destruct H as (e & (i & _ & Q & ->) & Hl & _). injection Q as <-. destruct (C42_unique _ _ _ _ _ _ _ _ _ Hl L3) as (X & _). discriminate.
  - apply R3. exists [7]. split; [exists 7; repeat split; lia|]. split; [exact Y7|]. intros j w Hl. pose proof (proj1 Hl) as Hc. apply F7; [apply Hc|]. destruct (C2 _ _ _ _ Hc) as [-> | ->]; [apply C0 in Hc|apply C1 in Hc]; destruct Hc as ((i & _ & -> & _) & _); reflexivity.
  - apply R4. split; [exists 11; repeat split; lia|]. split.
    + intros (j & w & Hc). destruct (C2 _ _ _ _ Hc) as [-> | ->]; [apply C0 in Hc|apply C1 in Hc]; destruct Hc as ((i & Hi & _ & Q) & _); injection Q as <-; lia.
    + intros (i & v & Hc). apply Cy in Hc. destruct Hc as (_ & Hc). discriminate.
Qed.

Print Assumptions C42_sources.
Print Assumptions C42_flow_partial.
Print Assumptions C42_unique.
Print Assumptions C42_complete.
