(** Proofs about contexts. *)
From Coq Require Import ZArith List Bool Lia.
From Verif Require Import CtxModel.
Import ListNotations.
Open Scope Z_scope.

(** ** specification *)
(** an entry of a history that reports success to the caller *)
Definition granted (e : call * option Z * error) : bool :=
  match e with
  | (CNext, Some 0, _) | (CMalloc _ _, Some 1, _) | (CCalloc _ _ _, Some 1, _) | (CRealloc _ _, Some 1, _) => true
  | _ => false
  end.
Definition operation (k : call) : Prop :=
  match k with CNext | CMalloc _ _ | CCalloc _ _ _ | CRealloc _ _ => True | _ => False end.
Definition no_reset (k : call) : Prop := match k with CResetOps => False | _ => True end.
Definition no_set (k : call) : Prop := match k with CSetMax _ => False | _ => True end.
Definition count (h : list (call * option Z * error)) : nat := length (filter granted h).
(** the contexts that exist after isl_ctx_alloc *)
Definition live (c : ctx) : Prop := (exists o, c_opt c = Some o) /\ 0 <= c_ops c < 2 ^ 64 /\ 0 <= c_max c < 2 ^ 64.

(** ** proofs *)
Lemma die_ret {A} c e (a : A) c' r : die (Some c) e a = Ret (Some c') r -> c' = with_error c e /\ r = a.
Proof. cbn. destruct (c_opt c) as [o|]; [|discriminate]. destruct (o_on_error o); intros [= <- <-]; auto. Qed.
Lemma next_cases c c' r : live c -> next_operation (Some c) = Ret (Some c') r ->
  (r = 0 /\ c_abort c = false /\ (c_max c = 0 \/ c_ops c < c_max c) /\ c' = with_ops c ((c_ops c + 1) mod 2 ^ 64)) \/
  (r = -1 /\ c_abort c = true /\ c' = with_error c Eabort) \/
  (r = -1 /\ c_abort c = false /\ 0 < c_max c <= c_ops c /\ c' = with_error c Equota).
Proof.
  intros (_ & O & M). unfold next_operation. destruct (c_abort c); [intros [= <- <-]; auto|]. destruct (Z.eqb_spec (c_max c) 0) as [E|E]; cbn [negb andb].
  - intros [= <- <-]. left. auto.
  - destruct (Z.leb_spec (c_max c) (c_ops c)).
    + intros D. apply die_ret in D as [-> ->]. right; right. repeat split; auto; lia.
    + intros [= <- <-]. left. repeat split; auto.
Qed.
(** the effect of a call on what matters *)
Definition pass (c c' : ctx) : Prop := c_max c' = c_max c /\ c_opt c' = c_opt c /\ c_ops c' = c_ops c.
Definition alloc_call (k : call) : option (bool * Z) :=
  match k with CMalloc p s => Some (p, s) | CCalloc p n _ => Some (p, n) | CRealloc p s => Some (p, s) | _ => None end.
Lemma perform_alloc c k p s : alloc_call k = Some (p, s) -> perform c k =
  drop_val (match next_operation (Some c) with
   | Ret c r => if r <? 0 then Ret c false else match c with Some _ => check_non_null c p s | None => Ret c false end
   | Abort => Abort | UB => UB end) (fun _ r => Some (if r then 1 else 0)).
Proof. destruct k; cbn [alloc_call]; try discriminate; intros [= <- <-]; reflexivity. Qed.
Lemma next_some c o r : next_operation (Some c) = Ret o r -> exists c', o = Some c'.
Proof.
  unfold next_operation, die. destruct (c_abort c); [intros [= <- <-]; cbn; eauto|]. destruct (_ && _); [|intros [= <- <-]; eauto]. destruct (c_opt c) as [o'|]; [|discriminate]. destruct (o_on_error o'); intros [= <- <-]; cbn; eauto.
Qed.
Lemma op_cases c k c' r : live c -> operation k -> perform c k = Ret (Some c') r ->
  let g := granted (k, r, c_error c') in
  c_max c' = c_max c /\ c_opt c' = c_opt c /\ c_abort c' = c_abort c /\
  ((c_abort c = false /\ (c_max c = 0 \/ c_ops c < c_max c) /\ c_ops c' = (c_ops c + 1) mod 2 ^ 64) \/
   (g = false /\ c_ops c' = c_ops c /\ c_abort c = true /\ c_error c' = Eabort) \/
   (g = false /\ c_ops c' = c_ops c /\ c_abort c = false /\ 0 < c_max c <= c_ops c /\ c_error c' = Equota)).
Proof.
  intros L K P. cbn zeta. destruct (alloc_call k) as [[p s]|] eqn:A.
  - rewrite (perform_alloc c k p s A) in P. destruct (next_operation (Some c)) as [o rn| |] eqn:N; try discriminate. destruct (next_some _ _ _ N) as [c1 ->]. destruct (next_cases c c1 rn L N) as [(-> & H1 & H2 & ->)|[(-> & H1 & ->)|(-> & H1 & H2 & ->)]]; cbn [Z.ltb Z.compare] in P.
    + assert (c_max c' = c_max c /\ c_opt c' = c_opt c /\ c_abort c' = c_abort c /\ c_ops c' = (c_ops c + 1) mod 2 ^ 64).
      { unfold check_non_null in P. destruct (p || (s =? 0)); cbn [drop_val] in P; [injection P as <- <-; repeat split|]. destruct (die _ _ _) as [o' r'| |] eqn:D; try discriminate. cbn [drop_val] in P. injection P as -> <-. apply die_ret in D as [-> _]. repeat split. }
      destruct H as (A1 & A2 & A3 & A4). repeat split; auto.
    + cbn [drop_val] in P. injection P as <- <-. repeat split; auto. right; left. repeat split; auto. destruct k; (discriminate || reflexivity).
    + cbn [drop_val] in P. injection P as <- <-. repeat split; auto. right; right. repeat split; auto; try lia. destruct k; (discriminate || reflexivity).
  - destruct k; try discriminate; try contradiction. cbn [perform] in P. destruct (next_operation (Some c)) as [o rn| |] eqn:N; try discriminate. destruct (next_some _ _ _ N) as [c1 ->]. cbn [drop_val] in P. injection P as <- <-.
    destruct (next_cases c c1 rn L N) as [(-> & H1 & H2 & ->)|[(-> & H1 & ->)|(-> & H1 & H2 & ->)]]; (split; [reflexivity|]; split; [reflexivity|]; split; [reflexivity|]).
    + left. auto.
    + right; left. auto.
    + right; right. repeat split; auto; lia.
Qed.
Lemma other_cases c k c' r : ~ operation k -> perform c k = Ret (Some c') r -> granted (k, r, c_error c') = false /\ c_opt c' = c_opt c /\
  (no_reset k -> c_ops c' = c_ops c) /\ (no_set k -> c_max c' = c_max c).
Proof.
  intros K P. destruct k; try (exfalso; apply K; exact I); cbn in P.
  1-5: injection P as <- <-; repeat split; cbn; auto; tauto.
  - unfold ctx_ref in P. destruct (_ <? _); [injection P as <- <-|discriminate]. repeat split.
  - unfold ctx_deref in P. destruct (_ <? _); [injection P as <- <-; repeat split|]. destruct (die _ _ _) as [o r'| |] eqn:D; try discriminate. cbn [drop_val] in P. injection P as -> <-. apply die_ret in D as [-> _]. repeat split.
Qed.
Definition is_op (k : call) : bool := match k with CNext | CMalloc _ _ | CCalloc _ _ _ | CRealloc _ _ => true | _ => false end.
Lemma is_op_ok k : if is_op k then operation k else ~ operation k.
Proof. destruct k; cbn; auto. Qed.

Definition valid (k : call) : Prop := match k with CSetMax m => 0 <= m < 2 ^ 64 | _ => True end.
Lemma perform_live c k c' r : live c -> valid k -> perform c k = Ret (Some c') r -> live c'.
Proof.
  intros L V P. pose proof (is_op_ok k) as K. destruct (is_op k).
  - destruct (op_cases c k c' r L K P) as (A & B & _ & C). destruct L as (L1 & L2 & L3). unfold live. rewrite A, B. split; [exact L1|]. split; [|exact L3].
    destruct C as [(_ & _ & ->)|[(_ & -> & _)|(_ & -> & _)]]; auto. apply Z.mod_pos_bound. lia.
  - destruct (other_cases c k c' r K P) as (_ & B & C & D). destruct L as (L1 & L2 & L3). unfold live. rewrite B. split; [exact L1|]. destruct k; try (exfalso; apply K; exact I); cbn in P; try (rewrite C, D by exact I; auto).
    + injection P as <- <-. cbn. split; [exact L2|exact V].
    + injection P as <- <-. cbn. split; [lia|exact L3].
Qed.
Lemma history_cons c k l c2 h : history c (k :: l) = Some (c2, h) -> exists c' r h', perform c k = Ret (Some c') r /\ history c' l = Some (c2, h') /\ h = (k, r, c_error c') :: h'.
Proof.
  cbn [history]. destruct (perform c k) as [[c'|] r| |]; try discriminate. destruct (history c' l) as [[c3 h']|] eqn:E; [|discriminate]. intros [= <- <-]. exists c', r, h'. auto.
Qed.

Lemma limit_ok : forall l c c' h, live c -> 0 < c_max c -> Forall no_reset l -> Forall no_set l -> history c l = Some (c', h) ->
  Z.of_nat (count h) <= Z.max 0 (c_max c - c_ops c) /\ c_max c' = c_max c.
Proof.
  induction l as [|k l IH]; intros c c' h L M NR NS H; [injection H as <- <-; cbn; lia|]. apply Forall_cons_iff in NR as [R1 NR]. apply Forall_cons_iff in NS as [S1 NS].
  apply history_cons in H as (c1 & r & h' & P & H & ->). assert (V : valid k) by (destruct k; cbn in *; tauto). pose proof (perform_live c k c1 r L V P) as L1. unfold count. cbn [filter].
  pose proof (is_op_ok k) as K. destruct (is_op k).
  - destruct (op_cases c k c1 r L K P) as (A & _ & _ & C). destruct (IH c1 c' h' L1 ltac:(lia) NR NS H) as [I1 I2]. unfold count in I1. split; [|congruence]. rewrite A in I1.
    destruct L as (_ & LO & LM). destruct C as [(_ & C1 & C2)|[(G & C2 & _)|(G & C2 & _)]].
    + rewrite Z.mod_small in C2 by lia. destruct (granted _); cbn [length]; lia.
    + rewrite G. lia.
    + rewrite G. lia.
  - destruct (other_cases c k c1 r K P) as (G & _ & C & D). destruct (IH c1 c' h' L1 ltac:(rewrite D by exact S1; lia) NR NS H) as [I1 I2]. rewrite G. unfold count in I1. rewrite C, D in I1 by assumption. split; [exact I1|]. rewrite I2. apply D. exact S1.
Qed.
Lemma refuse_ok : forall l c c' h, live c -> 0 < c_max c <= c_ops c -> Forall no_reset l -> Forall no_set l -> history c l = Some (c', h) ->
  Forall (fun e => operation (fst (fst e)) -> granted e = false /\ (snd e = Equota \/ snd e = Eabort)) h /\ c_ops c' = c_ops c.
Proof.
  induction l as [|k l IH]; intros c c' h L M NR NS H; [injection H as <- <-; auto|]. apply Forall_cons_iff in NR as [R1 NR]. apply Forall_cons_iff in NS as [S1 NS].
  apply history_cons in H as (c1 & r & h' & P & H & ->). assert (V : valid k) by (destruct k; cbn in *; tauto). pose proof (perform_live c k c1 r L V P) as L1.
  pose proof (is_op_ok k) as K. destruct (is_op k).
  - destruct (op_cases c k c1 r L K P) as (A & _ & _ & C). destruct C as [(_ & C1 & C2)|[(G & C2 & _ & E)|(G & C2 & _ & _ & E)]]; [lia| |]; (destruct (IH c1 c' h' L1 ltac:(lia) NR NS H) as [I1 I2]; split; [|congruence]; constructor; [intros _; cbn [snd]; auto|exact I1]).
  - destruct (other_cases c k c1 r K P) as (G & _ & C & D). destruct (IH c1 c' h' L1 ltac:(rewrite C, D by assumption; lia) NR NS H) as [I1 I2]. split; [|rewrite I2; apply C; exact R1]. constructor; [intros Q; contradiction|exact I1].
Qed.
Lemma history_app : forall l1 l2 c c' h, history c (l1 ++ l2) = Some (c', h) -> exists c1 h1 h2, history c l1 = Some (c1, h1) /\ history c1 l2 = Some (c', h2) /\ h = h1 ++ h2.
Proof.
  induction l1 as [|k l1 IH]; intros l2 c c' h H; [exists c, [], h; auto|]. cbn [app] in H. apply history_cons in H as (c1 & r & h' & P & H & ->). destruct (IH _ _ _ _ H) as (c2 & h1 & h2 & H1 & H2 & ->).
  exists c2, ((k, r, c_error c1) :: h1), h2. split; [cbn [history]; rewrite P, H1; reflexivity|]. auto.
Qed.
Lemma history_live : forall l c c' h, live c -> Forall valid l -> history c l = Some (c', h) -> live c'.
Proof.
  induction l as [|k l IH]; intros c c' h L V H; [injection H as <- <-; exact L|]. apply Forall_cons_iff in V as [V1 V]. apply history_cons in H as (c1 & r & h' & P & H & ->). eapply IH; [|exact V|exact H]. eapply perform_live; eassumption.
Qed.
Lemma history_max : forall l c c' h, live c -> Forall no_set l -> history c l = Some (c', h) -> c_max c' = c_max c.
Proof.
  induction l as [|k l IH]; intros c c' h L NS H; [injection H as <- <-; reflexivity|]. apply Forall_cons_iff in NS as [S1 NS]. apply history_cons in H as (c1 & r & h' & P & H & ->).
  assert (V : valid k) by (destruct k; cbn in *; tauto). pose proof (perform_live c k c1 r L V P) as L1. rewrite (IH _ _ _ L1 NS H). pose proof (is_op_ok k) as K. destruct (is_op k).
  - apply (op_cases c k c1 r L K P).
  - apply (other_cases c k c1 r K P). exact S1.
Qed.
Lemma segment_ok c l1 l2 c' h : live c -> 0 < c_max c -> Forall no_set (l1 ++ l2) -> Forall no_reset l2 -> history c (l1 ++ l2) = Some (c', h) ->
  Z.of_nat (count (skipn (length l1) h)) <= c_max c.
Proof.
  intros L M NS NR H. apply Forall_app in NS as [N1 N2]. apply history_app in H as (c1 & h1 & h2 & H1 & H2 & ->).
  assert (L1 : live c1). { eapply history_live; [exact L| |exact H1]. eapply Forall_impl; [|exact N1]. intros [] HH; cbn in *; tauto. }
  pose proof (history_max _ _ _ _ L N1 H1) as M1. assert (Len : length h1 = length l1). { clear - H1. revert c h1 H1. induction l1 as [|k l1 IH]; intros c h1 H1; [injection H1 as <- <-; reflexivity|]. apply history_cons in H1 as (c2 & r & h' & P & H & ->). cbn [length]. f_equal. eapply IH. exact H. }
  rewrite skipn_app, Len, Nat.sub_diag, <- Len, skipn_all. cbn [app skipn]. destruct (limit_ok l2 c1 c' h2 L1 ltac:(lia) NR N2 H2) as [B _]. destruct L1 as (_ & O & _). lia.
Qed.

(** a computation that performs [n] operations and gives up at the first one
    that fails *)
Fixpoint compute (n : nat) (c : ctx) : outcome bool :=
  match n with
  | O => Ret (Some c) true
  | S n =>
    match next_operation (Some c) with
    | Ret (Some c) r => if r <? 0 then Ret (Some c) false else compute n c
    | Ret None _ => Ret None false
    | Abort => Abort | UB => UB
    end
  end.
Lemma compute_ok : forall n c c' r, live c -> c_abort c = false -> 0 < c_max c -> compute n c = Ret c' r ->
  (r = true <-> Z.of_nat n <= Z.max 0 (c_max c - c_ops c)) /\ (r = false -> last_error c' = Equota).
Proof.
  induction n as [|n IH]; intros c c' r L A M H; cbn [compute] in H; [injection H as <- <-; split; [split; [lia|reflexivity]|discriminate]|].
  destruct (next_operation (Some c)) as [o rn| |] eqn:N; try discriminate. destruct (next_some _ _ _ N) as [c1 ->]. destruct (next_cases c c1 rn L N) as [(-> & H1 & H2 & ->)|[(-> & H1 & ->)|(-> & H1 & H2 & ->)]].
  - cbn [Z.ltb Z.compare] in H. destruct L as (L1 & L2 & L3). assert (E : (c_ops c + 1) mod 2 ^ 64 = c_ops c + 1) by (apply Z.mod_small; lia).
    rewrite E in H. assert (L' : live (with_ops c (c_ops c + 1))) by (split; [exact L1|]; cbn [c_ops c_max with_ops]; lia). destruct (IH _ _ _ L' A M H) as [I1 I2]. cbn [c_max c_ops with_ops] in I1. split; [rewrite I1; lia|exact I2].
  - congruence.
  - cbn in H. injection H as <- <-. split; [split; [discriminate|lia]|reflexivity].
Qed.
Lemma alloc_ok opt : 0 <= o_max opt < 2 ^ 64 -> exists c, ctx_alloc opt true true true = Ret (Some c) tt /\ live c /\ c_ops c = 0 /\ c_max c = o_max opt /\ c_ref c = 0 /\ c_error c = Enone /\ c_abort c = false.
Proof. intros H. eexists. split; [reflexivity|]. split; [|repeat split]. split; [eexists; reflexivity|]. cbn [c_ops c_max with_max with_ops]. lia. Qed.
