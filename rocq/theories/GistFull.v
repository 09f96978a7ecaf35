From Coq Require Import ZArith List Bool Arith Lia Permutation ZifyBool.
From Verif Require Import BMapGauss SeqModel SeqSpec SeqProofs MatModel SortModel BMapModel BMapSpec BMapSem BMapLists BMapGauss2 BDupModel BDupProofs LocalModel BElimModel BElimSpec BElimCols BElimProofs BElimVars SimpModel SimpSpec SimpBase SimpFinal SetModel SetSpec SetBase SetLift SetOps SetOps3 SetMaps SubModel GistModel GistSpec GistFlat.
Import ListNotations.
Open Scope Z_scope.

Lemma nth_lset_eq {A} (l : list A) i a d : (i < length l)%nat -> nth i (lset l i a) d = a.
Proof. intros H. rewrite (nth_lset l d i a i H), Nat.eqb_refl. reflexivity. Qed.
Lemma nth_lset_neq {A} (l : list A) i j a d : j <> i -> nth j (lset l i a) d = nth j l d.
Proof. revert i j. induction l as [|x l IH]; intros [|i] [|j] H; cbn; try congruence; auto. Qed.
Lemma nth_firstn_lt {A} (l : list A) d : forall k j, (j < k)%nat -> nth j (firstn k l) d = nth j l d.
Proof. induction l as [|x l IH]; intros [|k] [|j] H; cbn; try lia; auto. apply IH. lia. Qed.
Lemma kind_eq_dec (a b : kind) : {a = b} + {a <> b}. Proof. decide equality. Qed.
(** ** removing constraints *)
Definition sub_rows (b b' : bmap) : Prop :=
  b_param b' = b_param b /\ b_in b' = b_in b /\ b_out b' = b_out b /\ b_div b' = b_div b /\ b_rat b' = b_rat b /\ b_empty b' = b_empty b /\ incl (b_eq b') (b_eq b) /\ incl (b_ineq b') (b_ineq b).
Lemma sub_rows_refl b : sub_rows b b. Proof. repeat split; intros x; auto. Qed.
Lemma sub_rows_trans a b c : sub_rows a b -> sub_rows b c -> sub_rows a c.
Proof. intros (A1 & A2 & A3 & A4 & A5 & A6 & A7 & A8) (B1 & B2 & B3 & B4 & B5 & B6 & B7 & B8). repeat split; try congruence; intros x Hx; auto. Qed.
Lemma ldrop_incl {A} (l : list A) i : incl (ldrop l i) l.
Proof. intros x H. unfold ldrop in H. apply in_app_or in H. destruct H as [H|H]; [rewrite <- (firstn_skipn i l)|rewrite <- (firstn_skipn (S i) l)]; apply in_or_app; auto. Qed.
Lemma drop_swap_incl (l : list row) i : (i < length l)%nat -> incl (drop_swap l i) l.
Proof. intros H x Hx. apply (Permutation_in x (drop_swap_perm l i H)). right. exact Hx. Qed.
Lemma drop_eq_sub rel : forall i b, sub_rows b (drop_unrelated_eq i rel b).
Proof. induction i as [|i IH]; intros b; cbn [drop_unrelated_eq]; [apply sub_rows_refl|]. eapply sub_rows_trans; [|apply IH]. destruct (is_related _ _); [apply sub_rows_refl|]. repeat split; intros x Hx; [exact (ldrop_incl _ _ x Hx)|exact Hx]. Qed.
Lemma drop_ineq_sub rel : forall i b, (i <= length (b_ineq b))%nat -> sub_rows b (drop_unrelated_ineq i rel b).
Proof.
  induction i as [|i IH]; intros b Hi; cbn [drop_unrelated_ineq]; [apply sub_rows_refl|]. destruct (is_related _ _); [apply IH; lia|]. eapply sub_rows_trans; [|apply IH; cbn [drop_inequality set_ineq b_ineq]; rewrite drop_swap_length; lia].
  repeat split; intros x Hx; [exact Hx|apply (drop_swap_incl (b_ineq b) i Hi x Hx)].
Qed.
Lemma drop_unrelated_sub b rel : sub_rows b (drop_unrelated b rel).
Proof.
  unfold drop_unrelated. destruct (forallb _ _); [apply sub_rows_refl|]. cbv zeta. eapply sub_rows_trans; [apply drop_eq_sub|apply drop_ineq_sub; lia].
Qed.
Lemma drop_unrelated_constraints_sub b inv b' : drop_unrelated_constraints b inv = Ok b' -> sub_rows b b'.
Proof.
  unfold drop_unrelated_constraints. cbv zeta. destruct (forallb _ _); [intros [= <-]; apply sub_rows_refl|]. destruct (group_rows _ _ (b_eq b)) as [g1| | |]; cbn [bind]; try discriminate. destruct (group_rows _ g1 _) as [g2| | |]; cbn [bind]; try discriminate. intros [= <-]. apply drop_unrelated_sub.
Qed.
Lemma sub_rows_flat n b b' : flat n b -> b_empty b = false -> sub_rows b b' -> flat n b' /\ b_empty b' = false /\ (forall v, sat b v -> sat b' v) /\ forall c, zcol c b -> zcol c b'.
Proof.
  intros F E (A1 & A2 & A3 & A4 & A5 & A6 & A7 & A8). destruct (flat_nvar n b F) as (NV & ND & T). pose proof F as (P & (S1 & S2 & S3) & D). assert (T' : total b' = total b) by (unfold total, nvar, ndiv; congruence). split; [|split; [congruence|split]].
  - apply flat_intro.
    + destruct P as ((W1 & W2 & W3) & _). split; [|split]; [| |rewrite A4; rewrite T'; exact W3]; rewrite T'; unfold rows_of in *; rewrite Forall_forall in *; intros r Hr; auto.
    + unfold sized. rewrite A1, A2, A3. auto.
    + congruence.
    + rewrite A5. apply P.
    + intros E'. congruence.
  - intros v [S4 S5]. split; rewrite Forall_forall in *; intros r Hr; auto.
  - intros c [Z1 Z2]. split; rewrite Forall_forall in *; intros r Hr; auto.
Qed.

(** ** constraints that only differ in the constant term *)
Section Hash.
Variable hash : row -> nat.
Lemma hash_loop_weak self c l : forall f t h h', hash_index_loop f t l self c h = Ok h' -> match nth h' t None with Some j => seq_eq c (tl (nth j l [])) = true | None => True end.
Proof.
  induction f as [|f IH]; intros t h h' E; cbn [hash_index_loop] in E; [discriminate E|]. destruct (nth h t None) as [j|] eqn:EN.
  - destruct (negb _ && _) eqn:EB; [|exact (IH _ _ _ E)]. injection E as <-. rewrite EN. apply andb_true_iff in EB. apply EB.
  - injection E as <-. rewrite EN. exact I.
Qed.
Lemma tl_length_row (r : list Z) : length (tl r) = (length r - 1)%nat. Proof. destruct r; cbn; lia. Qed.
Definition inside (t : list (option nat)) (n : nat) : Prop := forall h j, nth h t None = Some j -> (j < n)%nat.
Lemma setup_inside l : forall n t k t', (k + n <= length l)%nat -> setup_index hash n t l k = Ok t' -> inside t (length l) -> inside t' (length l).
Proof.
  induction n as [|n IH]; intros t k t' Hn E N; cbn [setup_index] in E; [injection E as <-; exact N|]. destruct (hash_index _ _ _ _ _) as [h| | |]; cbn [bind] in E; try discriminate E. apply (IH _ (S k) _ ltac:(lia) E).
  intros h' j Hj. destruct (Nat.eq_dec h' h) as [->|Nh].
  - destruct (Nat.lt_ge_cases h (length t)) as [L|L]; [|rewrite nth_overflow in Hj by (rewrite lset_length; lia); discriminate Hj]. rewrite nth_lset_eq in Hj by exact L. injection Hj as <-. lia.
  - rewrite nth_lset_neq in Hj by congruence. exact (N _ _ Hj).
Qed.
Lemma constraint_index_inside l t : constraint_index hash l = Ok t -> inside t (length l).
Proof. intros E. apply (setup_inside l (length l) _ 0 _ (le_n _) E). intros h j. rewrite nth_repeat. discriminate. Qed.
Lemma is_redundant_ok m t l r : rows_of m l -> length r = m -> inside t (length l) -> is_redundant hash t l r = Ok true -> exists r0, In r0 l /\ tl r0 = tl r /\ hd 0 r0 <= hd 0 r.
Proof.
  intros RW Lr N. unfold is_redundant, hash_index. destruct (hash_index_loop _ _ _ _ _ _) as [h| | |] eqn:E; cbn [bind]; try discriminate. apply hash_loop_weak in E. destruct (nth h t None) as [j|] eqn:EN; [|discriminate].
  intros [= H]. exists (nth j l []). pose proof (N _ _ EN) as Hj. split; [apply nth_In; exact Hj|]. split; [|lia]. symmetry. apply seq_eq_ok; [|exact E]. rewrite !tl_length_row. pose proof (proj1 (Forall_nth_iff _ _ []) RW j Hj) as Lj. cbn beta in Lj. lia.
Qed.
Definition shadowed (l : list row) (r : row) : Prop := is_constant r = true /\ 0 <= hd 0 r \/ exists r0, In r0 l /\ tl r0 = tl r /\ hd 0 r0 <= hd 0 r.
Lemma first_nz_none l : seq_first_non_zero l = None -> forall v, dot l v = 0.
Proof.
  intros H v. assert (Z0 : Forall (fun x => x = 0) l).
  { revert H. unfold seq_first_non_zero. generalize 0%nat. induction l as [|x l IH]; intros k H; [constructor|]. cbn in H. destruct (x =? 0) eqn:E; [|discriminate H]. constructor; [lia|exact (IH _ H)]. }
  clear H. revert v. induction Z0 as [|x l -> _ IH]; intros [|y v]; cbn; try reflexivity. rewrite IH. lia.
Qed.
Lemma dot_hd_tl r v : hd 0 v = 1 -> v <> [] -> dot r v = hd 0 r + dot (tl r) (tl v).
Proof. intros H N. destruct v as [|y v]; [congruence|]. cbn in H. subst y. destruct r as [|x r]; cbn [dot hd tl]; lia. Qed.
Lemma shadowed_ok l r m v : shadowed l r -> at_point m v -> Forall (nonneg_on v) l -> nonneg_on v r.
Proof.
  intros SH [Lv Hv] H. assert (NV : v <> []) by (intros ->; discriminate Lv). unfold nonneg_on. rewrite (dot_hd_tl r v Hv NV). destruct SH as [[C P]|(r0 & I0 & T0 & H0)].
  - unfold is_constant in C. destruct (seq_first_non_zero (tl r)) eqn:E; [discriminate C|]. rewrite (first_nz_none _ E). lia.
  - rewrite Forall_forall in H. specialize (H r0 I0). unfold nonneg_on in H. rewrite (dot_hd_tl r0 v Hv NV) in H. rewrite T0 in H. lia.
Qed.
Lemma mark_loop_ok m t l : rows_of m l -> inside t (length l) -> forall ineq mk, rows_of m ineq -> mark_loop hash t l ineq = Ok mk -> length mk = length ineq /\ forall i, nth i mk false = true -> shadowed l (nth i ineq []).
Proof.
  intros RW N. induction ineq as [|r ineq IH]; intros mk RI E; cbn [mark_loop] in E; [injection E as <-; split; [reflexivity|intros [|i] H; discriminate H]|].
  destruct (if is_constant r && (0 <=? hd 0 r) then Ok true else is_redundant hash t l r) as [x| | |] eqn:EX; cbn [bind] in E; try discriminate E. destruct (mark_loop hash t l ineq) as [mk'| | |]; cbn [bind] in E; try discriminate E. injection E as <-. apply Forall_cons_iff in RI. destruct RI as [Lr RI]. destruct (IH _ RI eq_refl) as [L Q].
  split; [cbn; congruence|]. intros [|i] H; cbn [nth] in *; [|exact (Q i H)]. subst x. destruct (is_constant r && (0 <=? hd 0 r)) eqn:EC; [left; lia|right; exact (is_redundant_ok m _ _ _ RW Lr N EX)].
Qed.
Lemma mark_shifted_ok m ineq ctx mk : rows_of m (b_ineq ctx) -> rows_of m ineq -> mark_shifted hash ineq ctx = Ok mk -> length mk = length ineq /\ forall i, nth i mk false = true -> shadowed (b_ineq ctx) (nth i ineq []).
Proof.
  intros RW RI. unfold mark_shifted. destruct (Nat.eqb _ 0).
  - intros [= <-]. split; [apply repeat_length|]. intros i H. rewrite nth_repeat in H. discriminate H.
  - destruct (constraint_index hash (b_ineq ctx)) as [t| | |] eqn:E; cbn [bind]; try discriminate. apply (mark_loop_ok m); [exact RW| |exact RI]. apply constraint_index_inside. exact E.
Qed.

End Hash.
(** ** positions in the tableau *)
Lemma number_kept : forall ineq mk pre, length mk = length ineq -> forall i, (i < length ineq)%nat ->
  match nth i (number_rows (length pre) mk) None with
  | Some r => (length pre <= r < length pre + length (kept ineq mk))%nat /\ nth r (pre ++ kept ineq mk) [] = nth i ineq []
  | None => nth i mk false = true
  end.
Proof.
  induction ineq as [|x ineq IH]; intros [|m mk] pre L i Hi; cbn in L, Hi; try lia. destruct m; cbn [number_rows kept].
  - destruct i as [|i]; [reflexivity|]. cbn [nth]. apply IH; lia.
  - destruct i as [|i]; cbn [nth].
    + cbn [length]. split; [lia|]. rewrite app_nth2 by lia. rewrite Nat.sub_diag. reflexivity.
    + specialize (IH mk (pre ++ [x]) ltac:(lia) i ltac:(lia)). rewrite app_length in IH. cbn [length] in IH. replace (length pre + 1)%nat with (S (length pre)) in IH by lia. destruct (nth i (number_rows (S (length pre)) mk) None); [|exact IH].
      destruct IH as [H1 H2]. cbn [length]. split; [lia|]. rewrite <- app_assoc in H2. exact H2.
Qed.
Lemma number_onto : forall ineq mk f, length mk = length ineq -> forall r, (f <= r < f + length (kept ineq mk))%nat -> exists i, (i < length ineq)%nat /\ nth i (number_rows f mk) None = Some r.
Proof.
  induction ineq as [|x ineq IH]; intros [|m mk] f L r Hr; cbn in L, Hr; try lia. destruct m; cbn [number_rows].
  - destruct (IH mk f ltac:(lia) r Hr) as (i & Hi & E). exists (S i). split; [cbn; lia|exact E].
  - cbn [length] in Hr. destruct (Nat.eq_dec r f) as [->|N]; [exists 0%nat; split; [cbn; lia|reflexivity]|]. destruct (IH mk (S f) ltac:(lia) r ltac:(lia)) as (i & Hi & E). exists (S i). split; [cbn; lia|exact E].
Qed.
Lemma number_length mk : forall f, length (number_rows f mk) = length mk.
Proof. induction mk as [|[|] mk IH]; intros f; cbn; auto. Qed.
Lemma kept_in ineq : forall mk r, In r (kept ineq mk) -> In r ineq.
Proof. induction ineq as [|x ineq IH]; intros [|m mk] r H; try (cbn in H; contradiction). cbn [kept] in H. destruct m; [right; exact (IH _ _ H)|]. destruct H as [->|H]; [left; reflexivity|right; exact (IH _ _ H)]. Qed.
Lemma kept_all (ineq : list row) : forall mk, length mk = length ineq -> forallb (fun m => m) mk = true -> forall i, (i < length ineq)%nat -> nth i mk false = true.
Proof. intros mk L F i Hi. rewrite forallb_forall in F. apply F. apply nth_In. lia. Qed.

(** ** sets found to be empty *)
Definition plainly_empty (n : nat) (b : bmap) : Prop := b_empty b = true -> b_eq b = [1 :: repeat 0 n] /\ b_ineq b = [].
Lemma set_to_empty_plainly n b : flat n b -> b_empty b = false -> plainly_empty n (set_to_empty b).
Proof. intros F E _. unfold set_to_empty. rewrite E. cbn [andb b_eq b_ineq]. destruct (flat_nvar n b F) as (-> & _). split; reflexivity. Qed.
Lemma set_div_from_eq_flag b d k : b_empty (fst (set_div_from_eq b d k)) = b_empty b.
Proof. unfold set_div_from_eq. destruct (negb _); [reflexivity|]. destruct (eq_involves_unknown_divs _ _ _); reflexivity. Qed.
Lemma set_div_from_eq_nvar b d k : nvar (fst (set_div_from_eq b d k)) = nvar b.
Proof. unfold set_div_from_eq. destruct (negb _); [reflexivity|]. destruct (eq_involves_unknown_divs _ _ _); reflexivity. Qed.
Lemma gauss_step_nvar b d k v : nvar (fst (gauss_step b d k v)) = nvar b.
Proof.
  unfold gauss_step.
  set (b1 := if Nat.eqb k d then b else set_eq b (lswap (b_eq b) k d)). assert (D1 : nvar b1 = nvar b) by (unfold b1; destruct (Nat.eqb k d); reflexivity). clearbody b1.
  set (b2 := if nth (1 + v) (nth d (b_eq b1) []) 0 <? 0 then set_eq b1 (lset (b_eq b1) d (seq_neg (nth d (b_eq b1) []))) else b1). assert (D2 : nvar b2 = nvar b1) by (unfold b2; destruct (_ <? 0); reflexivity). clearbody b2.
  assert (D3 : nvar (eliminate_var_using_equality b2 v (nth d (b_eq b2) []) (Some d) true) = nvar b2) by reflexivity. set (b3 := eliminate_var_using_equality _ _ _ _ _) in *. clearbody b3.
  cbv zeta. destruct (Nat.leb (nvar b3) v); [|cbn [fst]; congruence]. pose proof (set_div_from_eq_nvar b3 (v - nvar b3) d) as D4. destruct (set_div_from_eq b3 (v - nvar b3) d) as [b4 p4]. cbn [fst] in *. congruence.
Qed.
Lemma gauss_step_flag b d k v : b_empty (fst (gauss_step b d k v)) = b_empty b.
Proof.
  unfold gauss_step.
  set (b1 := if Nat.eqb k d then b else set_eq b (lswap (b_eq b) k d)). assert (D1 : b_empty b1 = b_empty b) by (unfold b1; destruct (Nat.eqb k d); reflexivity). clearbody b1.
  set (b2 := if nth (1 + v) (nth d (b_eq b1) []) 0 <? 0 then set_eq b1 (lset (b_eq b1) d (seq_neg (nth d (b_eq b1) []))) else b1). assert (D2 : b_empty b2 = b_empty b1) by (unfold b2; destruct (_ <? 0); reflexivity). clearbody b2.
  assert (D3 : b_empty (eliminate_var_using_equality b2 v (nth d (b_eq b2) []) (Some d) true) = b_empty b2) by reflexivity. set (b3 := eliminate_var_using_equality _ _ _ _ _) in *. clearbody b3.
  cbv zeta. destruct (Nat.leb (nvar b3) v); [|cbn [fst]; congruence]. pose proof (set_div_from_eq_flag b3 (v - nvar b3) d) as D4. destruct (set_div_from_eq b3 (v - nvar b3) d) as [b4 p4]. cbn [fst] in *. congruence.
Qed.
Lemma gauss_loop_flag : forall f b p d lv b' p' n, gauss_loop f b p d lv = Ok (b', p', n) -> b_empty b' = b_empty b /\ nvar b' = nvar b.
Proof.
  induction f as [|f IH]; intros b p d lv b' p' n E; cbn [gauss_loop] in E; [discriminate E|]. destruct (Nat.leb _ _); [injection E as <- _ _; auto|]. destruct lv as [|v]; [injection E as <- _ _; auto|].
  destruct (find_eq b d (1 + v)) as [k|]; [|exact (IH _ _ _ _ _ _ _ E)]. pose proof (gauss_step_flag b d k v) as D1. pose proof (gauss_step_nvar b d k v) as D2. destruct (gauss_step b d k v) as [b1 p1]. cbn [fst] in *. destruct (IH _ _ _ _ _ _ _ E). split; congruence.
Qed.
Lemma gauss_plainly n b b' p : flat n b -> b_empty b = false -> gauss b = Ok (b', p) -> plainly_empty n b'.
Proof.
  intros F E. unfold gauss. rewrite (order_nodiv b (proj2 (proj2 F))). unfold gauss_ordered. destruct (gauss_loop _ b false 0 (total b)) as [[[b1 p1] n1]| | |] eqn:EL; try discriminate. destruct (gauss_loop_flag _ _ _ _ _ _ _ _ EL) as [E1 N1]. rewrite E in E1. rewrite (proj1 (flat_nvar n b F)) in N1.
  destruct (Nat.eqb _ _); [intros [= <- _] C; congruence|]. destruct (existsb _ _); intros [= <- _] C; [|cbn in C; congruence]. unfold set_to_empty in *. cbn [free_equality set_eq b_empty] in *. rewrite E1 in *. cbn [andb b_eq b_ineq]. unfold nvar in *. cbn in *. rewrite N1. split; reflexivity.
Qed.

(** ** applying what is known about the inequalities *)
Lemma update_loop_flat n b ks : flat n b -> b_empty b = false ->
  let b' := update_loop (length (b_ineq b)) ks b in
  flat n b' /\ b_empty b' = false /\ (forall c, zcol c b -> zcol c b') /\ forall v, sat b' v <-> Forall (zero_on v) (b_eq b) /\ obeys ks (b_ineq b) v.
Proof.
  intros F E b'. destruct F as (P & (S1 & S2 & S3) & D). destruct (update_loop_ok ks (length (b_ineq b)) b (le_n _) (proj1 P)) as (SH & W & DV & Z & Q). fold b' in SH, W, DV, Z, Q.
  assert (E' : b_empty b' = false) by (unfold shape in SH; destruct SH as (_ & _ & _ & _ & _ & SE); congruence).
  split; [|split; [exact E'|split; [exact Z|]]].
  - destruct SH as (A1 & A2 & A3 & _ & A4 & _). apply flat_intro; [exact W|unfold sized; rewrite A1, A2, A3; auto|congruence|rewrite A4; apply P|intros C; congruence].
  - intros v. unfold sat. rewrite (Q v). rewrite skipn_all, firstn_all. intuition.
Qed.
Lemma update_from_tab_flat n b ks t : flat n b -> b_empty b = false -> update_from_tab b false ks = Ok t ->
  flat n t /\ forall v, at_point n v -> (sat t v <-> Forall (zero_on v) (b_eq b) /\ obeys ks (b_ineq b) v).
Proof.
  intros F E. unfold update_from_tab. cbv zeta. destruct (update_loop_flat n b ks F E) as (F1 & E1 & _ & Q1). set (b1 := update_loop _ _ _) in *. destruct (negb _).
  - destruct (gauss b1) as [[b2 p]| | |] eqn:EG; try discriminate. intros [= <-]. destruct (gauss_flat n b1 b2 p F1 EG) as (F2 & Q2 & _). split; [exact F2|]. intros v Av. rewrite <- (Q2 v Av). apply Q1.
  - intros [= <-]. split; [exact F1|]. intros v _. apply Q1.
Qed.
Lemma update_ineq_flat n b rows t b' : flat n b -> b_empty b = false -> update_ineq b rows t = Ok b' ->
  flat n b' /\ plainly_empty n b' /\ (forall c, zcol c b -> zcol c b') /\ forall v, at_point n v ->
    (sat b' v <-> if match t with Some (true, _) => true | _ => false end then False else Forall (zero_on v) (b_eq b) /\ obeys (map (row_kind t) rows) (b_ineq b) v).
Proof.
  intros F E. unfold update_ineq. destruct (match t with Some (true, _) => true | _ => false end).
  - intros [= <-]. destruct (set_to_empty_flat n b F) as [F1 N1]. split; [exact F1|]. split; [apply set_to_empty_plainly; assumption|]. split; [intros c; apply set_to_empty_z|]. intros v Av. split; [apply N1; exact Av|tauto].
  - cbv zeta. destruct (update_loop_flat n b (map (row_kind t) rows) F E) as (F1 & E1 & Z1 & Q1). set (b1 := update_loop _ _ _) in *. destruct (existsb _ _).
    + destruct (gauss b1) as [[b2 p]| | |] eqn:EG; cbn [bind fst]; try discriminate. intros [= <-]. destruct (gauss_flat n b1 b2 p F1 EG) as (F2 & Q2 & Z2). rewrite (flat_finalize n b2 F2). split; [exact F2|]. split; [exact (gauss_plainly n b1 b2 p F1 E1 EG)|]. split; [auto|]. intros v Av. rewrite <- (Q2 v Av). apply Q1.
    + cbn [bind]. intros [= <-]. rewrite (flat_finalize n b1 F1). split; [exact F1|]. split; [intros C; congruence|]. split; [exact Z1|]. intros v _. apply Q1.
Qed.

(** ** tests for redundancy *)
Section Tests.
Variable is_empty : bmap -> bool.
Hypothesis EMPTY : sound_emptiness_test is_empty.
Definition gist_known (m : nat) (b : bmap) (f : nat) (ks : list kind) : Prop :=
  (forall i, (i < f)%nat -> nth i ks Other <> Redundant) /\
  forall v, at_point m v ->
    (sat b v -> forall i, (i < length (b_ineq b))%nat -> nth i ks Other = Equality -> zero_on v (nth i (b_ineq b) [])) /\
    (Forall (zero_on v) (b_eq b) -> Forall (nonneg_on v) (firstn f (b_ineq b)) ->
     (forall i, (f <= i < length (b_ineq b))%nat ->
        match nth i ks Other with Equality => zero_on v (nth i (b_ineq b) []) | Redundant => True | Other => nonneg_on v (nth i (b_ineq b) []) end) -> Forall (nonneg_on v) (b_ineq b)) /\
    (Forall (zero_on v) (b_eq b) -> Forall (nonneg_on v) (firstn f (b_ineq b)) ->
     (forall i, (f <= i < length (b_ineq b))%nat -> nth i ks Other = Equality -> zero_on v (nth i (b_ineq b) [])) ->
     forall i, (i < f)%nat -> nth i ks Other = Equality -> zero_on v (nth i (b_ineq b) [])).
Lemma negate_dot r v : r <> [] -> v <> [] -> hd 0 v = 1 -> dot (negate_row r) v = - dot r v - 1.
Proof.
  intros Nr Nv Hv. destruct r as [|x r]; [congruence|]. unfold negate_row, seq_neg. cbn [map hd]. unfold zupd. cbn. destruct v as [|y v]; [congruence|]. cbn in *. subst y.
  assert (dot (map Z.opp r) v = - dot r v) as ->; [|lia]. clear. revert v. induction r as [|a r IH]; intros [|z v]; cbn; try reflexivity. rewrite IH. lia.
Qed.
Lemma negate_length r : length (negate_row r) = length r.
Proof. unfold negate_row. rewrite zupd_length. unfold seq_neg. apply map_length. Qed.
Lemma negate_flat m b r : flat m b -> b_empty b = false -> (r < length (b_ineq b))%nat -> flat m (inequality_negate b r) /\ b_empty (inequality_negate b r) = false.
Proof.
  intros F E Hr. split; [|exact E]. destruct F as (P & SZ & D). apply flat_intro; [|exact SZ|exact D|apply P|intros C; cbn in C; congruence].
  destruct P as ((W1 & W2 & W3) & _). split; [exact W1|]. split; [|exact W3]. cbn [inequality_negate set_ineq b_ineq]. unfold rows_of in *. apply (Forall_nth_iff _ _ []). intros i Hi. rewrite lset_length in Hi. change (total (inequality_negate b r)) with (total b).
  pose proof (proj1 (Forall_nth_iff _ _ []) W2) as W2'. destruct (Nat.eq_dec i r) as [->|N]; [rewrite nth_lset_eq by exact Hr; rewrite negate_length; apply W2'; exact Hr|rewrite nth_lset_neq by congruence; apply W2'; exact Hi].
Qed.
Lemma test_loop_ok m comb f rows : flat m comb -> b_empty comb = false -> (f <= length (b_ineq comb))%nat ->
  (forall i r, nth i rows None = Some r -> (f <= r < length (b_ineq comb))%nat) ->
  forall i ks ks', length ks = length (b_ineq comb) -> gist_known m comb f ks -> test_loop is_empty i rows comb false ks = Ok ks' -> gist_known m comb f ks'.
Proof.
  intros F E Hf HR. induction i as [|i IH]; intros ks ks' Lk K; cbn [test_loop]; [intros [= <-]; exact K|]. destruct (nth i rows None) as [r|] eqn:ER; [|apply IH; assumption]. pose proof (HR _ _ ER) as Rr.
  assert (STEP : forall k, nth r ks Other = k -> k <> Redundant ->
     (let! test := update_from_tab (inequality_negate comb r) false ks in test_loop is_empty i rows comb false (if is_empty test then match k with Equality => ks | _ => lset ks r Redundant end else ks)) = Ok ks' -> gist_known m comb f ks').
  { intros k Ek Nk. destruct (update_from_tab _ _ _) as [test| | |] eqn:ET; cbn [bind]; try discriminate. destruct (is_empty test) eqn:EE; [|apply IH; assumption]. destruct (kind_eq_dec k Equality) as [->|NE]; [apply IH; assumption|].
    assert (EK : k = Other) by (destruct k; congruence). rewrite EK in *. destruct (negate_flat m comb r F E ltac:(lia)) as [F1 E1]. destruct (update_from_tab_flat m _ ks test F1 E1 ET) as [F2 Q2].
    apply IH; [rewrite lset_length; exact Lk|]. destruct K as [K0 K1]. split.
    - intros j Hj. rewrite nth_lset_neq by lia. apply K0. exact Hj.
    - intros v Av. destruct (K1 v Av) as (A1 & A2 & A3). split; [|split].
      + intros Sv j Hj. destruct (Nat.eq_dec j r) as [->|N]; [rewrite nth_lset_eq by lia; discriminate|rewrite nth_lset_neq by congruence; apply A1; assumption].
      + intros Z1 Z2 Z3. assert (Z3' : forall j, (f <= j < length (b_ineq comb))%nat -> j <> r -> match nth j ks Other with Equality => zero_on v (nth j (b_ineq comb) []) | Redundant => True | Other => nonneg_on v (nth j (b_ineq comb) []) end).
        { intros j Hj Nj. specialize (Z3 j Hj). rewrite nth_lset_neq in Z3 by congruence. exact Z3. }
        assert (NN : nonneg_on v (nth r (b_ineq comb) [])).
        { unfold nonneg_on. destruct (Z.lt_ge_cases (dot (nth r (b_ineq comb) []) v) 0) as [NG|]; [|lia]. exfalso. apply (EMPTY m test F2 EE v Av). apply (Q2 v Av). split; [exact Z1|]. intros j Hj. cbn [inequality_negate set_ineq b_ineq] in *. rewrite lset_length in Hj.
          destruct (Nat.eq_dec j r) as [->|Nj].
          - rewrite Ek, nth_lset_eq by lia. unfold nonneg_on. destruct Av as [Lv Hv]. pose proof (proj2 (flat_wf m comb F)) as RW. pose proof (proj1 (Forall_nth_iff _ _ []) RW r ltac:(lia)) as Lr. cbn beta in Lr. rewrite negate_dot; [lia|intros C; rewrite C in Lr; discriminate Lr|intros C; rewrite C in Lv; discriminate Lv|exact Hv].
          - rewrite nth_lset_neq by congruence. destruct (Nat.lt_ge_cases j f) as [Lj|Gj]; [|apply Z3'; [lia|exact Nj]].
            destruct (nth j ks Other) eqn:Ej; [|exact I|].
            + apply (A3 Z1 Z2); [|exact Lj|exact Ej]. intros i' Hi' Ei'. assert (i' <> r) by congruence. specialize (Z3' i' Hi' H). rewrite Ei' in Z3'. exact Z3'.
            + pose proof (proj1 (Forall_nth_iff _ _ []) Z2 j) as G. rewrite firstn_length in G. specialize (G ltac:(lia)). rewrite (nth_firstn_lt _ [] _ _ Lj) in G. exact G. }
        apply A2; [exact Z1|exact Z2|]. intros j Hj. destruct (Nat.eq_dec j r) as [->|Nj]; [rewrite Ek; exact NN|apply Z3'; assumption].
      + intros Z1 Z2 Z3 j Hj Ej. rewrite nth_lset_neq in Ej by lia. apply (A3 Z1 Z2); [|exact Hj|exact Ej]. intros i' Hi' Ei'. apply Z3; [exact Hi'|]. rewrite nth_lset_neq; [exact Ei'|]. intros ->. congruence. }
  destruct (nth r ks Other) eqn:Ek; intros H; [apply (STEP Equality eq_refl ltac:(discriminate) H)|apply (IH _ _ Lk K H)|apply (STEP Other eq_refl ltac:(discriminate) H)].
Qed.
End Tests.
