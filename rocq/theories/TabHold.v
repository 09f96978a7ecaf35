(** What the operations of a tableau do to the marks of its constraints, also on
    tableaus that mean nothing. *)
From Coq Require Import ZArith List Bool Arith Lia.
From Verif Require Import SeqModel MatModel BMapModel BMapLists BElimModel TabModel TabSpec TabBase TabPivot TabMap.
Import ListNotations.
Open Scope Z_scope.

(** no constraint gets frozen, and no constraint loses its sign constraint or is
    no longer equal to zero *)
Record hold (t t' : tab) : Prop := {
  ho_ncon : t_ncon t' = t_ncon t; ho_neq : t_neq t' = t_neq t;
  ho_frozen : forall u, v_frozen (t_info t' u) = true -> v_frozen (t_info t u) = true;
  ho_zero : forall c, (c < t_ncon t)%nat -> v_zero (t_info t (con c)) = true -> v_zero (t_info t' (con c)) = true;
  ho_nonneg : forall c, (c < t_ncon t)%nat -> v_nonneg (t_info t (con c)) = true -> v_nonneg (t_info t' (con c)) = true }.
Lemma hold_refl t : hold t t. Proof. constructor; auto. Qed.
Lemma hold_trans t t1 t2 : hold t t1 -> hold t1 t2 -> hold t t2.
Proof.
  intros A B. constructor.
  - rewrite (ho_ncon _ _ B). apply A.
  - rewrite (ho_neq _ _ B). apply A.
  - intros u H. apply (ho_frozen _ _ A), (ho_frozen _ _ B), H.
  - intros c Hc H. apply (ho_zero _ _ B); [rewrite (ho_ncon _ _ A); exact Hc|]. apply (ho_zero _ _ A c Hc H).
  - intros c Hc H. apply (ho_nonneg _ _ B); [rewrite (ho_ncon _ _ A); exact Hc|]. apply (ho_nonneg _ _ A c Hc H).
Qed.
Lemma hold_upd t v f : (forall x, v_frozen (f x) = v_frozen x) -> (forall x, v_zero x = true -> v_zero (f x) = true) -> (forall x, v_nonneg x = true -> v_nonneg (f x) = true) -> hold t (upd t v f).
Proof.
  intros H1 H2 H3. constructor; try reflexivity; cbn -[con].
  - intros u. destruct (Z.eqb_spec u v) as [->|]; rewrite ?H1; auto.
  - intros c _. destruct (Z.eqb_spec (con c) v) as [->|]; auto.
  - intros c _. destruct (Z.eqb_spec (con c) v) as [->|]; auto.
Qed.
Lemma hold_same t t' : t_ncon t' = t_ncon t -> t_neq t' = t_neq t -> t_info t' = t_info t -> hold t t'.
Proof. intros H1 H2 H3. constructor; auto; rewrite H3; auto. Qed.
Ltac hsame := apply hold_same; reflexivity.
Lemma hold_rows t x : hold t (w_rows t x). Proof. hsame. Qed.
Lemma hold_rv t x : hold t (w_rv t x). Proof. hsame. Qed.
Lemma hold_cv t x : hold t (w_cv t x). Proof. hsame. Qed.
Lemma hold_nred t x : hold t (w_red t x). Proof. hsame. Qed.
Lemma hold_dead t x : hold t (w_dead t x). Proof. hsame. Qed.
Lemma hold_empty t x : hold t (w_empty t x). Proof. hsame. Qed.
Lemma hold_preserve t x : hold t (w_preserve t x). Proof. hsame. Qed.
Ltac hupd := apply hold_upd; intros; auto; reflexivity.
Lemma hold_swap_rows t i j : hold t (swap_rows t i j).
Proof. unfold swap_rows. cbv zeta. eapply hold_trans; [|apply hold_rows]. eapply hold_trans; [|hupd]. eapply hold_trans; [|hupd]. hsame. Qed.
Lemma hold_swap_cols t i j : hold t (swap_cols t i j).
Proof. unfold swap_cols. cbv zeta. eapply hold_trans; [|apply hold_rows]. eapply hold_trans; [|hupd]. eapply hold_trans; [|hupd]. hsame. Qed.
Lemma hold_push t u : hold t (push t u).
Proof. unfold push. destruct (t_undo t); hsame. Qed.
Lemma hold_push_var t u v t' : push_var t u v = Ok t' -> hold t t'.
Proof. unfold push_var. destruct (v_row (t_info t v)); intros H; apply bind_ok in H; destruct H as (i & _ & H); injection H as <-; apply hold_push. Qed.
Lemma hold_mark_empty t : hold t (mark_empty t).
Proof. unfold mark_empty. cbv zeta. eapply hold_trans; [|apply hold_empty]. destruct (negb (t_empty t) && t_undo t); [apply hold_push|apply hold_refl]. Qed.
Lemma hold_mark t i t' b : mark_redundant t i = Ok (t', b) -> hold t t'.
Proof.
  unfold mark_redundant. cbv zeta. set (t1 := upd t (rowv t i) (vs_red true)). assert (E1 : hold t t1) by hupd.
  destruct (Nat.ltb i (t_red t1)); [discriminate|]. destruct (t_preserve t1 || t_undo t1 || (0 <=? rowv t i)).
  - intros H. apply bind_ok in H. destruct H as (t2 & H2 & H). apply bind_ok in H. destruct H as (t3 & H3 & H). injection H as <- _.
    apply hold_push_var in H3. eapply hold_trans; [|exact H3]. eapply hold_trans; [|apply hold_nred]. assert (E2 : hold t t2).
    { destruct ((0 <=? rowv t i) && negb (v_nonneg (t_info t1 (rowv t i)))); [|injection H2 as <-; exact E1]. apply hold_push_var in H2. eapply hold_trans; [exact E1|]. eapply hold_trans; [|exact H2]. hupd. }
    destruct (Nat.eqb i (t_red t2)); [exact E2|]. eapply hold_trans; [exact E2|apply hold_swap_rows].
  - intros H. injection H as <- _. set (last := (nrow t1 - 1)%nat). eapply hold_trans; [|apply hold_rows]. eapply hold_trans; [|apply hold_rv]. eapply hold_trans; [|hupd].
    destruct (Nat.eqb i last); [exact E1|]. eapply hold_trans; [exact E1|apply hold_swap_rows].
Qed.
Lemma hold_sweep c : forall k i t t', sweep k i c t = Ok t' -> hold t t'.
Proof.
  induction k as [|k IH]; intros i t t' H; cbn [sweep] in H; [injection H as <-; apply hold_refl|]. destruct (cf t i c =? 0); [apply (IH _ _ _ H)|]. destruct (negb (v_frozen (t_info t (rowv t i))) && row_is_redundant t i); [|apply (IH _ _ _ H)].
  apply bind_ok in H. destruct H as ((t1, b) & H1 & H). eapply hold_trans; [apply (hold_mark _ _ _ _ H1)|apply (IH _ _ _ H)].
Qed.
Lemma hold_pivot t i c t' : pivot t i c = Ok t' -> hold t t'.
Proof.
  unfold pivot. cbv zeta. assert (E : hold t (pivot_step t i c)).
  { unfold pivot_step. cbv zeta. eapply hold_trans; [|hupd]. eapply hold_trans; [|hupd]. hsame. }
  destruct (t_inundo (pivot_step t i c)); intros H; [injection H as <-; exact E|]. eapply hold_trans; [exact E|apply (hold_sweep _ _ _ _ _ H)].
Qed.
Ltac inv1 := match goal with
  | H : bind _ _ = Ok _ |- _ => apply bind_ok in H; destruct H as (? & ? & H)
  | H : Ok _ = Ok _ |- _ => injection H; clear H; intros; subst
  | H : Null = Ok _ |- _ => discriminate H
  | H : UB = Ok _ |- _ => discriminate H
  | H : Div = Ok _ |- _ => discriminate H
  | x : (_ * _)%type |- _ => destruct x
  | H : (if ?b then _ else _) = Ok _ |- _ => destruct b
  | H : match ?o with Some _ => _ | None => _ end = Ok _ |- _ => destruct o
  | H : (let '(_, _) := ?p in _) = Ok _ |- _ => destruct p
  | H : pivot _ _ _ = Ok _ |- _ => apply hold_pivot in H
  | H : mark_redundant _ _ = Ok (_, _) |- _ => apply hold_mark in H
  | H : push_var _ _ _ = Ok _ |- _ => apply hold_push_var in H
  end.
Ltac chain := repeat match goal with
  | |- hold ?a ?a => apply hold_refl
  | H : hold ?a ?b |- hold ?a ?b => exact H
  | H : hold ?a ?c |- hold ?a _ => eapply hold_trans; [exact H|]; clear H
  | H : hold ?x ?b |- hold ?a ?b => eapply hold_trans; [|exact H]; clear H
  | |- hold ?a (mark_empty _) => eapply hold_trans; [|apply hold_mark_empty]
  | |- hold ?a (swap_cols _ _ _) => eapply hold_trans; [|apply hold_swap_cols]
  | |- hold ?a (upd _ _ _) => eapply hold_trans; [|hupd]
  end.
Ltac hold_tac := cbv zeta in *; repeat (inv1; cbv zeta in * ); chain.
Lemma hold_to_row t v s t' : to_row t v s = Ok t' -> hold t t'.
Proof. unfold to_row. intros H. hold_tac. Qed.
Lemma hold_restore v : forall fuel t t' s, restore_row fuel t v = Ok (t', s) -> hold t t'.
Proof. induction fuel as [|f IH]; intros t t' s H; cbn [restore_row] in H; [discriminate|]. hold_tac; try (apply IH in H); chain. Qed.
Lemma hold_max_loop v : forall fuel t t' s, sign_of_max_loop fuel t v = Ok (t', s) -> hold t t'.
Proof. induction fuel as [|f IH]; intros t t' s H; cbn [sign_of_max_loop] in H; [discriminate|]. hold_tac; try (apply IH in H); chain. Qed.
Lemma hold_max fuel t v t' s : sign_of_max fuel t v = Ok (t', s) -> hold t t'.
Proof. unfold sign_of_max. intros H. repeat inv1; try match goal with H : to_row _ _ _ = Ok _ |- _ => apply hold_to_row in H end; try (apply hold_max_loop in H); chain. Qed.
Ltac inv2 := match goal with
  | H : to_row _ _ _ = Ok _ |- _ => apply hold_to_row in H
  | H : restore_row _ _ _ = Ok (_, _) |- _ => apply hold_restore in H
  | H : sign_of_max _ _ _ = Ok (_, _) |- _ => apply hold_max in H
  | _ => inv1
  end.
Ltac hold2 := cbv zeta in *; repeat (inv2; cbv zeta in * ); chain.
Lemma hold_back fuel t v u r c t' : pivot_back fuel t v u r c = Ok t' -> hold t t'.
Proof. unfold pivot_back. intros H. hold2. Qed.
Lemma hold_min_loop v : forall fuel t l t' s, sign_of_min_loop fuel t v l = Ok (t', s) -> hold t t'.
Proof. induction fuel as [|f IH]; intros t l t' s H; cbn [sign_of_min_loop] in H; [discriminate|]. cbv zeta in *. repeat (first [inv2 | apply IH in H | match goal with H : pivot_back _ _ _ _ _ _ = Ok _ |- _ => apply hold_back in H end]; cbv zeta in * ); chain. Qed.
Lemma hold_min fuel t v t' s : sign_of_min fuel t v = Ok (t', s) -> hold t t'.
Proof. unfold sign_of_min. intros H. cbv zeta in *. repeat (first [inv2 | apply hold_min_loop in H | match goal with H : pivot_back _ _ _ _ _ _ = Ok _ |- _ => apply hold_back in H end]; cbv zeta in * ); chain. Qed.
Lemma hold_one_loop v : forall fuel t t' s, min_neg_one_loop fuel t v = Ok (t', s) -> hold t t'.
Proof. induction fuel as [|f IH]; intros t t' s H; cbn [min_neg_one_loop] in H; [discriminate|]. cbv zeta in *. repeat (first [inv2 | apply IH in H]; cbv zeta in * ); chain. Qed.
Lemma hold_one fuel t v t' s : min_at_most_neg_one fuel t v = Ok (t', s) -> hold t t'.
Proof. unfold min_at_most_neg_one. intros H. cbv zeta in *. repeat (first [inv2 | apply hold_one_loop in H | match goal with H : pivot_back _ _ _ _ _ _ = Ok _ |- _ => apply hold_back in H end]; cbv zeta in * ); chain. Qed.
Lemma hold_least_loop v : forall fuel t t' s, at_least_one_loop fuel t v = Ok (t', s) -> hold t t'.
Proof. induction fuel as [|f IH]; intros t t' s H; cbn [at_least_one_loop] in H; [discriminate|]. cbv zeta in *. repeat (first [inv2 | apply IH in H]; cbv zeta in * ); chain. Qed.
Lemma hold_least fuel t v t' s : at_least_one fuel t v = Ok (t', s) -> hold t t'.
Proof. unfold at_least_one. intros H. cbv zeta in *. repeat (first [inv2 | apply hold_least_loop in H]; cbv zeta in * ); chain. Qed.
Lemma hold_kill t c t' b : kill_col t c = Ok (t', b) -> hold t t'.
Proof.
  unfold kill_col. cbv zeta. set (t1 := upd t (colv t c) (vs_zero true)). assert (E1 : hold t t1) by hupd. intros H.
  destruct (t_undo t1).
  - apply bind_ok in H. destruct H as (t2 & H2 & H). injection H as <- _. apply hold_push_var in H2. eapply hold_trans; [exact E1|]. eapply hold_trans; [exact H2|]. eapply hold_trans; [|apply hold_dead]. destruct (Nat.eqb c (t_dead t2)); chain.
  - injection H as <- _. eapply hold_trans; [exact E1|]. eapply hold_trans; [|apply hold_rows]. eapply hold_trans; [|apply hold_cv]. eapply hold_trans; [|hupd]. destruct (Nat.eqb c (ncol t1 - 1)); chain.
Qed.
Lemma hold_close_loop v : forall k j t t', close_row_loop k j t v = Ok t' -> hold t t'.
Proof. induction k as [|k IH]; intros j t t' H; cbn [close_row_loop] in H; [injection H as <-; apply hold_refl|]. repeat (first [inv2 | apply IH in H | match goal with H : kill_col _ _ = Ok (_, _) |- _ => apply hold_kill in H end]); chain. Qed.
Lemma hold_close t v b t' : close_row t v b = Ok t' -> hold t t'.
Proof.
  unfold close_row. cbv zeta. destruct (negb (v_nonneg (t_info t v))); [discriminate|]. set (t1 := upd t v (vs_zero true)). assert (E1 : hold t t1) by hupd. clearbody t1. intros H.
  apply bind_ok in H. destruct H as (t2 & H2 & H). apply bind_ok in H. destruct H as (t3 & H3 & H). apply bind_ok in H. destruct H as (t4 & H4 & H). injection H as <-. apply hold_close_loop in H3.
  assert (E2 : hold t1 t2) by (hold2). assert (E4 : hold t3 t4) by (destruct b; hold2). eapply hold_trans; [exact E1|]. eapply hold_trans; [exact E2|]. eapply hold_trans; [exact H3|]. eapply hold_trans; [exact E4|]. destruct (manifestly_empty t4); chain.
Qed.
Lemma hold_set_marks l : forall t n t' n', set_marks t l n = (t', n') -> hold t t'.
Proof. induction l as [|(v, m) l IH]; intros t n t' n' H; cbn [set_marks] in H; [injection H as <- _; apply hold_refl|]. apply IH in H. eapply hold_trans; [|exact H]. hupd. Qed.
Lemma hold_clear_marks l : forall t n t' n', clear_marks t l n = (t', n') -> hold t t'.
Proof. induction l as [|(v, m) l IH]; intros t n t' n' H; cbn [clear_marks] in H; [injection H as <- _; apply hold_refl|]. destruct (v_marked (t_info t v) && m); apply IH in H; [|exact H]. eapply hold_trans; [|exact H]. hupd. Qed.

(** ** adding and removing the last constraint *)
Record grow (t t' : tab) : Prop := {
  gw_ncon : t_ncon t' = S (t_ncon t);
  gw_frozen : forall u, v_frozen (t_info t' u) = true -> v_frozen (t_info t u) = true;
  gw_zero : forall c, (c < t_ncon t)%nat -> v_zero (t_info t (con c)) = true -> v_zero (t_info t' (con c)) = true;
  gw_nonneg : forall c, (c < t_ncon t)%nat -> v_nonneg (t_info t (con c)) = true -> v_nonneg (t_info t' (con c)) = true }.
Lemma grow_hold t t1 t2 : grow t t1 -> hold t1 t2 -> grow t t2.
Proof.
  intros A B. constructor.
  - rewrite (ho_ncon _ _ B). apply A.
  - intros u H. apply (gw_frozen _ _ A), (ho_frozen _ _ B), H.
  - intros c Hc H. apply (ho_zero _ _ B); [rewrite (gw_ncon _ _ A); lia|]. apply (gw_zero _ _ A c Hc H).
  - intros c Hc H. apply (ho_nonneg _ _ B); [rewrite (gw_ncon _ _ A); lia|]. apply (gw_nonneg _ _ A c Hc H).
Qed.
Lemma con_neq c d : (c < d)%nat -> (con c =? con d) = false.
Proof. intros H. apply Z.eqb_neq. unfold con. lia. Qed.
Lemma grow_new t r : grow t (w_ncon (w_rows (w_rv (upd t (con (t_ncon t)) (fun _ => mkvar (Some (nrow t)) true false false false false false false)) (t_rv t ++ [con (t_ncon t)])) (t_rows t ++ [r])) (S (t_ncon t))).
Proof.
  constructor; cbn -[con]; [reflexivity| | |].
  - intros u. destruct (Z.eqb_spec u (con (t_ncon t))); [discriminate|auto].
  - intros c Hc. rewrite con_neq by exact Hc. auto.
  - intros c Hc. rewrite con_neq by exact Hc. auto.
Qed.
Lemma grow_add_row t l t' : add_row t l = Ok t' -> grow t t'.
Proof. unfold add_row. intros H. apply bind_ok in H. destruct H as (r & _ & H). injection H as <-. unfold allocate_con. cbv zeta. eapply grow_hold; [apply grow_new|apply hold_push]. Qed.
Lemma drop_last_hold t t1 w t2 : grow t t1 -> t_neq t1 = t_neq t -> drop_last_con_in_row t1 w = Ok t2 -> hold t t2.
Proof.
  unfold drop_last_con_in_row, drop_row. intros G Nq H. destruct (negb (v_row (t_info t1 w))); [discriminate|]. destruct (negb (w =? con (t_ncon t1 - 1))); [discriminate|]. apply bind_ok in H. destruct H as (i & _ & H).
  destruct (negb (rowv t1 i =? con (t_ncon t1 - 1))); [discriminate|]. cbv zeta in H. injection H as <-.
  set (t3 := if Nat.eqb i (nrow t1 - 1) then t1 else swap_rows t1 i (nrow t1 - 1)). assert (E : hold t1 t3) by (unfold t3; destruct (Nat.eqb i (nrow t1 - 1)); [apply hold_refl|apply hold_swap_rows]). clearbody t3.
  pose proof (grow_hold _ _ _ G E) as G3. constructor; cbn -[con].
  - rewrite (gw_ncon _ _ G3). lia.
  - rewrite (ho_neq _ _ E). exact Nq.
  - apply G3.
  - apply G3.
  - apply G3.
Qed.
Lemma hold_cut fuel t v t' : cut_to_hyperplane fuel t v = Ok t' -> hold t t'.
Proof.
  unfold cut_to_hyperplane. cbv zeta. intros H. destruct (v_zero (t_info t v)); [injection H as <-; apply hold_refl|]. destruct (v_red (t_info t v) || negb (v_nonneg (t_info t v))); [discriminate|].
  apply bind_ok in H. destruct H as (r & _ & H). apply bind_ok in H. destruct H as ((t2, s) & H2 & H). apply hold_max in H2. pose proof (grow_hold _ _ _ (grow_new t r) H2) as G2. assert (Nq2 : t_neq t2 = t_neq t) by (rewrite (ho_neq _ _ H2); reflexivity).
  destruct (s <? 0).
  - apply bind_ok in H. destruct H as (t3 & H3 & H). injection H as <-. apply (drop_last_hold t) in H3; [|exact G2|exact Nq2]. eapply hold_trans; [exact H3|apply hold_mark_empty].
  - apply bind_ok in H. destruct H as (t3 & H3 & H). apply hold_close in H3. set (t2' := upd t2 (con (t_ncon t)) (vs_nonneg true)) in *. assert (E : hold t2 t2') by hupd. pose proof (hold_trans _ _ _ E H3) as E3.
    apply (drop_last_hold t) in H; [exact H|apply (grow_hold _ _ _ G2 E3)|rewrite (ho_neq _ _ E3); exact Nq2].
Qed.
Lemma hold_eq_loop again : (forall t t', again t = Ok t' -> hold t t') -> forall fuel t n t', detect_eq_loop fuel again t n = Ok t' -> hold t t'.
Proof.
  intros Ag. induction fuel as [|f IH]; intros t n t' H; cbn [detect_eq_loop] in H; [discriminate|]. destruct n as [|n]; [injection H as <-; apply hold_refl|]. destruct (select_marked t) as [v|]; [|injection H as <-; apply hold_refl].
  cbv zeta in H. eapply hold_trans; [apply (hold_upd t v (vs_marked false)); intros; auto|]. apply bind_ok in H. destruct H as ((t2, s) & H2 & H). apply hold_max in H2. eapply hold_trans; [exact H2|]. clear H2. destruct (s <? 0); [discriminate|].
  assert (Rest : forall t3, (let '(t, n) := clear_marks t3 (map (fun i => (rowv t3 i, negb (may_be_equality t3 i))) (live_rows t3)) n in detect_eq_loop f again t n) = Ok t' -> hold t3 t').
  { intros t3 H3. destruct (clear_marks t3 _ n) as [t4 n4] eqn:E. apply hold_clear_marks in E. eapply hold_trans; [exact E|apply (IH _ _ _ H3)]. }
  destruct (s =? 0).
  - apply bind_ok in H. destruct H as (t3 & H3 & H). apply hold_close in H3. eapply hold_trans; [exact H3|apply Rest; exact H].
  - destruct (negb (t_rat t2)); [|apply Rest; exact H]. apply bind_ok in H. destruct H as ((t3, o) & H3 & H). apply hold_least in H3. eapply hold_trans; [exact H3|]. destruct (negb o); [|apply Rest; exact H].
    apply bind_ok in H. destruct H as (t4 & H4 & H). apply hold_cut in H4. eapply hold_trans; [exact H4|apply Ag; exact H].
Qed.
Lemma hold_detect_eq : forall fuel t t', detect_implicit_equalities fuel t = Ok t' -> hold t t'.
Proof.
  induction fuel as [|f IH]; intros t t' H; cbn [detect_implicit_equalities] in H; [discriminate|]. destruct (t_empty t); [injection H as <-; apply hold_refl|]. destruct (Nat.eqb (t_dead t) (ncol t)); [injection H as <-; apply hold_refl|].
  cbv zeta in H. destruct (set_marks t _ 0) as [t1 n] eqn:E. apply hold_set_marks in E. eapply hold_trans; [exact E|]. apply (hold_eq_loop _ IH f t1 n t' H).
Qed.
Lemma hold_con_red fuel t v t' b : con_is_redundant fuel t v = Ok (t', b) -> hold t t'.
Proof. unfold con_is_redundant. intros H. destruct (t_rat t); apply bind_ok in H; destruct H as ((t1, x) & H1 & H); injection H as <- _; [apply (hold_min _ _ _ _ _ H1)|apply (hold_one _ _ _ _ _ H1)]. Qed.
Lemma hold_red_loop : forall fuel t n t', detect_red_loop fuel t n = Ok t' -> hold t t'.
Proof.
  induction fuel as [|f IH]; intros t n t' H; cbn [detect_red_loop] in H; [discriminate|]. destruct n as [|n]; [injection H as <-; apply hold_refl|]. destruct (select_marked t) as [v|]; [|injection H as <-; apply hold_refl].
  cbv zeta in H. eapply hold_trans; [apply (hold_upd t v (vs_marked false)); intros; auto|]. apply bind_ok in H. destruct H as ((t2, s) & H2 & H). apply hold_con_red in H2. eapply hold_trans; [exact H2|]. clear H2.
  apply bind_ok in H. destruct H as (t3 & H3 & H). eapply (hold_trans t2 t3); [hold2|]. destruct (clear_marks t3 _ n) as [t4 n4] eqn:E. apply hold_clear_marks in E. eapply hold_trans; [exact E|apply (IH _ _ _ H)].
Qed.
Lemma hold_detect_red fuel t t' : detect_redundant fuel t = Ok t' -> hold t t'.
Proof.
  unfold detect_redundant. intros H. destruct (t_empty t); [injection H as <-; apply hold_refl|]. destruct (Nat.eqb (t_red t) (nrow t)); [injection H as <-; apply hold_refl|].
  cbv zeta in H. destruct (set_marks t _ 0) as [t1 n] eqn:E. apply hold_set_marks in E. eapply hold_trans; [exact E|]. apply (hold_red_loop fuel t1 n t' H).
Qed.
Lemma hold_restore_redundant fuel t t' : restore_redundant fuel t = Ok t' -> hold t t'.
Proof.
  unfold restore_redundant. destruct (t_undo t); [discriminate|]. revert t. induction fuel as [|f IH]; intros t; cbn [restore_redundant_loop]; [discriminate|]. destruct (t_red t) as [|n]; [intros [= <-]; apply hold_refl|].
  set (t1 := if 0 <=? rowv t n then upd t (rowv t n) (vs_nonneg false) else t). assert (E1 : hold t t1).
  { unfold t1. destruct (Z.leb_spec 0 (rowv t n)) as [P|]; [|apply hold_refl]. constructor; try reflexivity; cbn -[con].
    - intros u. destruct (Z.eqb_spec u (rowv t n)) as [->|]; auto.
    - intros c _. destruct (Z.eqb_spec (con c) (rowv t n)) as [->|]; auto.
    - intros c _. destruct (Z.eqb_spec (con c) (rowv t n)) as [X|]; auto. unfold con in X. lia. }
  clearbody t1. intros H. apply bind_ok in H. destruct H as (t2 & H2 & H). apply IH in H. eapply hold_trans; [exact E1|]. eapply hold_trans; [|exact H].
  unfold restore_last_redundant in H2. destruct (t_red t1) as [|m]; [discriminate|]. apply bind_ok in H2. destruct H2 as ((t3, s) & H3 & H2). injection H2 as <-. apply hold_restore in H3. eapply hold_trans; [|exact H3]. eapply hold_trans; [|apply hold_nred]. hupd.
Qed.
Lemma grow_add_ineq fuel t l t' : add_ineq fuel t l = Ok t' -> grow t t' /\ v_nonneg (t_info t' (con (t_ncon t))) = true.
Proof.
  unfold add_ineq. intros H. apply bind_ok in H. destruct H as (t1 & H1 & H). apply grow_add_row in H1. cbv zeta in H. rewrite (gw_ncon _ _ H1) in H. replace (S (t_ncon t) - 1)%nat with (t_ncon t) in H by lia.
  set (v := con (t_ncon t)) in *. set (t2 := upd t1 v (vs_nonneg true)) in *. assert (E2 : hold t1 t2) by hupd. assert (Nn : v_nonneg (t_info t2 v) = true) by (cbn; rewrite Z.eqb_refl; reflexivity). clearbody t2.
  assert (E : hold t2 t').
  { apply bind_ok in H. destruct H as (t3 & H3 & H). apply bind_ok in H. destruct H as (i & _ & H). apply hold_push_var in H3. eapply hold_trans; [exact H3|]. clear H3. hold2. }
  split; [apply (grow_hold t t1 t' H1 (hold_trans _ _ _ E2 E))|]. apply (ho_nonneg _ _ E); [|exact Nn]. rewrite (ho_ncon _ _ E2), (gw_ncon _ _ H1). lia.
Qed.
(** marking redundant does not move the columns *)
Lemma push_var_cv t u v t' : push_var t u v = Ok t' -> t_cv t' = t_cv t.
Proof. unfold push_var. destruct (v_row (t_info t v)); intros H; apply bind_ok in H; destruct H as (i & _ & H); injection H as <-; unfold push; destruct (t_undo t); reflexivity. Qed.
Lemma mark_cv t i t' b : mark_redundant t i = Ok (t', b) -> t_cv t' = t_cv t.
Proof.
  unfold mark_redundant. cbv zeta. set (t1 := upd t (rowv t i) (vs_red true)). assert (E1 : t_cv t1 = t_cv t) by reflexivity. clearbody t1.
  destruct (Nat.ltb i (t_red t1)); [discriminate|]. destruct (t_preserve t1 || t_undo t1 || (0 <=? rowv t i)).
  - intros H. apply bind_ok in H. destruct H as (t2 & H2 & H). apply bind_ok in H. destruct H as (t3 & H3 & H). injection H as <- _. apply push_var_cv in H3. rewrite H3.
    assert (E2 : t_cv t2 = t_cv t1) by (destruct ((0 <=? rowv t i) && negb (v_nonneg (t_info t1 (rowv t i)))); [apply push_var_cv in H2; rewrite H2; reflexivity|injection H2 as <-; reflexivity]).
    cbn [w_red t_cv]. destruct (Nat.eqb i (t_red t2)); [congruence|]. transitivity (t_cv t2); [reflexivity|congruence].
  - intros H. injection H as <- _. rewrite <- E1. destruct (Nat.eqb i (nrow t1 - 1)); reflexivity.
Qed.
Lemma sweep_cv c : forall k i t t', sweep k i c t = Ok t' -> t_cv t' = t_cv t.
Proof.
  induction k as [|k IH]; intros i t t' H; cbn [sweep] in H; [injection H as <-; reflexivity|]. destruct (cf t i c =? 0); [apply (IH _ _ _ H)|]. destruct (negb (v_frozen (t_info t (rowv t i))) && row_is_redundant t i); [|apply (IH _ _ _ H)].
  apply bind_ok in H. destruct H as ((t1, b) & H1 & H). apply mark_cv in H1. rewrite <- H1. apply (IH _ _ _ H).
Qed.
Lemma pivot_cv t i c t' : (c < ncol t)%nat -> pivot t i c = Ok t' -> colv t' c = rowv t i.
Proof.
  unfold pivot. cbv zeta. intros Hc H. assert (E : colv (pivot_step t i c) c = rowv t i) by (unfold colv, pivot_step; cbn [upd w_info w_cv w_rv w_rows t_cv]; rewrite (nth_lset _ 0) by exact Hc; rewrite Nat.eqb_refl; reflexivity).
  destruct (t_inundo (pivot_step t i c)); [injection H as <-; exact E|]. apply sweep_cv in H. unfold colv in *. rewrite H. exact E.
Qed.
Lemma kill_zero t c t' b : kill_col t c = Ok (t', b) -> v_zero (t_info t' (colv t c)) = true.
Proof.
  unfold kill_col. cbv zeta. set (v := colv t c). set (t1 := upd t v (vs_zero true)). assert (E1 : v_zero (t_info t1 v) = true) by (cbn; rewrite Z.eqb_refl; reflexivity). clearbody t1.
  assert (Sw : forall t i j, v_zero (t_info (swap_cols t i j) v) = v_zero (t_info t v)).
  { intros u i j. unfold swap_cols. cbv zeta. cbn [w_rows t_info upd w_info]. repeat match goal with |- context [if ?x =? ?y then _ else _] => destruct (Z.eqb_spec x y) as [<-|] end; reflexivity. }
  destruct (t_undo t1); intros H.
  - apply bind_ok in H. destruct H as (t2 & H2 & H). injection H as <- _. assert (E2 : v_zero (t_info t2 v) = true).
    { revert H2. unfold push_var. destruct (v_row (t_info t1 v)); intros H; apply bind_ok in H; destruct H as (i & _ & H); injection H as <-; unfold push; destruct (t_undo t1); exact E1. }
    cbn [w_dead t_info]. destruct (Nat.eqb c (t_dead t2)); [exact E2|rewrite Sw; exact E2].
  - injection H as <- _. cbn [w_rows w_cv t_info upd w_info]. set (t2 := if Nat.eqb c (ncol t1 - 1) then t1 else swap_cols t1 c (ncol t1 - 1)).
    assert (E2 : v_zero (t_info t2 v) = true) by (unfold t2; destruct (Nat.eqb c (ncol t1 - 1)); [exact E1|rewrite Sw; exact E1]). destruct (Z.eqb_spec v (colv t2 (ncol t1 - 1))) as [<-|]; exact E2.
Qed.
Lemma add_row_last t l t' : add_row t l = Ok t' -> row_of t' (con (t_ncon t)) = Ok (nrow t) /\ rowv t' (nrow t) = con (t_ncon t).
Proof.
  unfold add_row. intros H. apply bind_ok in H. destruct H as (r & _ & H). injection H as <-. unfold allocate_con. cbv zeta. set (t1 := w_ncon _ _).
  assert (E : t_info t1 (con (t_ncon t)) = mkvar (Some (nrow t)) true false false false false false false) by (unfold t1; cbn -[con]; rewrite Z.eqb_refl; reflexivity).
  assert (Er : t_rv t1 = t_rv t ++ [con (t_ncon t)]) by reflexivity. clearbody t1.
  assert (Ep : t_info (push t1 (U_allocate (con (t_ncon t)))) = t_info t1 /\ t_rv (push t1 (U_allocate (con (t_ncon t)))) = t_rv t1) by (unfold push; destruct (t_undo t1); split; reflexivity). destruct Ep as (Ep1 & Ep2).
  unfold row_of, rowv. unfold nrow at 1. rewrite Ep1, Ep2, E, Er, app_length. cbn [v_idx length]. split.
  - rewrite (proj2 (Nat.ltb_lt _ _)) by (unfold nrow; lia). reflexivity.
  - rewrite app_nth2 by (unfold nrow; lia). unfold nrow. rewrite Nat.sub_diag. reflexivity.
Qed.
Lemma grow_add_eq t l t' : add_eq0 t l = Ok t' -> grow t t' /\ v_zero (t_info t' (con (t_ncon t))) = true.
Proof.
  unfold add_eq0. intros H. apply bind_ok in H. destruct H as (t1 & H1 & H). destruct (add_row_last _ _ _ H1) as (Ro & Rv). apply grow_add_row in H1. rewrite (gw_ncon _ _ H1) in H. replace (S (t_ncon t) - 1)%nat with (t_ncon t) in H by lia.
  rewrite Ro in H. cbn [bind] in H. destruct (first_live t1 (nrow t)) as [c|] eqn:Fl; [|discriminate]. apply find_some in Fl. destruct Fl as (Fl & _). apply in_live_cols in Fl.
  apply bind_ok in H. destruct H as (t2 & H2 & H). apply bind_ok in H. destruct H as ((t3, b) & H3 & H). injection H as <-. pose proof (pivot_cv t1 (nrow t) c t2 ltac:(lia) H2) as Cv. pose proof (kill_zero _ _ _ _ H3) as Z3. rewrite Cv, Rv in Z3.
  apply hold_pivot in H2. apply hold_kill in H3. pose proof (grow_hold _ _ _ H1 (hold_trans _ _ _ H2 H3)) as G. split; [|exact Z3]. constructor; apply G.
Qed.

(** ** isl_tab_from_basic_map *)
Record labelled (ne : nat) (t : tab) : Prop := {
  lb_frozen : forall u, v_frozen (t_info t u) = false;
  lb_zero : forall c, (c < t_ncon t)%nat -> (c < ne)%nat -> v_zero (t_info t (con c)) = true;
  lb_nonneg : forall c, (c < t_ncon t)%nat -> (ne <= c)%nat -> v_nonneg (t_info t (con c)) = true }.
Lemma labelled_hold ne t t' : labelled ne t -> hold t t' -> labelled ne t'.
Proof.
  intros B E. constructor.
  - intros u. destruct (v_frozen (t_info t' u)) eqn:X; [|reflexivity]. apply (ho_frozen _ _ E) in X. rewrite (lb_frozen _ _ B) in X. discriminate.
  - intros c Hc L. rewrite (ho_ncon _ _ E) in Hc. apply (ho_zero _ _ E c Hc). apply (lb_zero _ _ B c Hc L).
  - intros c Hc L. rewrite (ho_ncon _ _ E) in Hc. apply (ho_nonneg _ _ E c Hc). apply (lb_nonneg _ _ B c Hc L).
Qed.
Lemma labelled_eqs : forall es t t', labelled (t_ncon t) t -> add_eqs t es = Ok t' -> labelled (t_ncon t') t' /\ t_ncon t' = (t_ncon t + length es)%nat.
Proof.
  induction es as [|e es IH]; intros t t' B H; cbn [add_eqs] in H; [injection H as <-; split; [exact B|cbn; lia]|]. apply bind_ok in H. destruct H as (t1 & H1 & H). destruct (grow_add_eq _ _ _ H1) as (G & Z1).
  destruct (IH t1 t') as (B' & N'); [|exact H|split; [exact B'|rewrite N', (gw_ncon _ _ G); cbn; lia]]. constructor.
  - intros u. destruct (v_frozen (t_info t1 u)) eqn:X; [|reflexivity]. apply (gw_frozen _ _ G) in X. rewrite (lb_frozen _ _ B) in X. discriminate.
  - intros c Hc _. rewrite (gw_ncon _ _ G) in Hc. destruct (Nat.eq_dec c (t_ncon t)) as [->|N]; [exact Z1|]. apply (gw_zero _ _ G); [lia|]. apply (lb_zero _ _ B); lia.
  - intros c Hc L. lia.
Qed.
Lemma labelled_ineqs fuel ne : forall es t t', (ne <= t_ncon t)%nat -> labelled ne t -> add_ineqs fuel t es = Ok t' -> labelled ne t'.
Proof.
  induction es as [|e es IH]; intros t t' Ln B H; cbn [add_ineqs] in H; [injection H as <-; exact B|]. apply bind_ok in H. destruct H as (t1 & H1 & H). destruct (grow_add_ineq _ _ _ _ H1) as (G & N1).
  assert (B1 : labelled ne t1).
  { constructor.
    - intros u. destruct (v_frozen (t_info t1 u)) eqn:X; [|reflexivity]. apply (gw_frozen _ _ G) in X. rewrite (lb_frozen _ _ B) in X. discriminate.
    - intros c Hc L. rewrite (gw_ncon _ _ G) in Hc. apply (gw_zero _ _ G); [lia|]. apply (lb_zero _ _ B); lia.
    - intros c Hc L. rewrite (gw_ncon _ _ G) in Hc. destruct (Nat.eq_dec c (t_ncon t)) as [->|N]; [exact N1|]. apply (gw_nonneg _ _ G); [lia|]. apply (lb_nonneg _ _ B); lia. }
  destruct (t_empty t1); [injection H as <-; exact B1|]. apply (IH t1 t'); [rewrite (gw_ncon _ _ G); lia|exact B1|exact H].
Qed.
Lemma labelled_map fuel b t : b_empty b = false -> from_basic_map fuel b = Ok t -> labelled (length (b_eq b)) t.
Proof.
  unfold from_basic_map. intros ->. intros H. apply bind_ok in H. destruct H as (t1 & H1 & H). destruct (labelled_eqs (b_eq b) (w_rat (tab_alloc (total b)) (b_rat b)) t1) as (B1 & N1); [|exact H1|].
  - constructor; cbn -[con]; intros; try lia; reflexivity.
  - change (t_ncon (w_rat (tab_alloc (total b)) (b_rat b))) with 0%nat in N1. rewrite Nat.add_0_l in N1. rewrite N1 in B1. apply (labelled_ineqs fuel _ _ _ _ (Nat.eq_le_incl _ _ (eq_sym N1)) B1 H).
Qed.
Lemma labelled_redundancy fuel b t : b_empty b = false -> redundancy_tab fuel b = Ok t -> labelled (length (b_eq b)) t.
Proof.
  unfold redundancy_tab. intros Ne H. apply bind_ok in H. destruct H as (t1 & H1 & H). apply bind_ok in H. destruct H as (t2 & H2 & H). apply bind_ok in H. destruct H as (t3 & H3 & H4).
  apply hold_detect_eq in H2. apply hold_restore_redundant in H3. apply hold_detect_red in H4. apply (labelled_hold _ t1); [apply (labelled_map fuel b t1 Ne H1)|].
  eapply hold_trans; [apply hold_preserve|]. eapply hold_trans; [exact H2|]. eapply hold_trans; [exact H3|]. eapply hold_trans; [apply hold_preserve|exact H4].
Qed.
