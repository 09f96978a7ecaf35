(** Proofs about the alignment of parameters. *)
From Coq Require Import ZArith List Bool Lia Arith.
From Verif Require Import SeqSpec SeqProofs MatModel BMapModel BMapLists BMapSpec BMapSem BMapOrder BElimProofs SpaceModel SpaceSpec SpaceBase SpaceOps SpaceOps2 SpaceOps3 SpaceAlign ReorderModel ReorderSpec ReorderBase.
Import ListNotations.
Open Scope nat_scope.

Lemma mem_false n Q : mem (Some n) Q = false <-> ~ List.In (Some n) Q.
Proof.
  unfold mem. split.
  - intros H I. assert (X : existsb (fun m => match m with Some b => Z.eqb n b | None => false end) Q = true).
    { apply existsb_exists. exists (Some n). split; [exact I|apply Z.eqb_refl]. } congruence.
  - intros H. destruct (existsb _ Q) eqn:E; [|reflexivity]. apply existsb_exists in E. destruct E as ([m|] & I & E); [|discriminate].
    apply Z.eqb_eq in E. subst. contradiction.
Qed.
Lemma mem_true n Q : mem (Some n) Q = true <-> List.In (Some n) Q.
Proof. rewrite <- (not_false_iff_true (mem _ _)), mem_false. destruct (in_dec (fun a b : option Z => ltac:(decide equality; apply Z.eq_dec)) (Some n) Q); tauto. Qed.

Lemma find_ok a id : forall n j, j + n = nparam a ->
  match find_param a id n j with
  | Some k => j <= k < nparam a /\ nth k (dl a Param) None = Some id
  | None => ~ List.In (Some id) (skipn j (dl a Param))
  end.
Proof.
  induction n as [|n IH]; intros j H; cbn [find_param].
  - rewrite skipn_all2 by (rewrite dl_length; cbn; lia). auto.
  - pose proof (nth_dl a Param j) as G. destruct (get_id a Param j) as [z|] eqn:E; cbn [opt_eqb].
    + destruct (Z.eqb_spec id z) as [->|Hz]; [split; [lia|congruence]|].
      specialize (IH (S j) ltac:(lia)). destruct (find_param a id n (S j)) as [k|]; [destruct IH; split; [lia|auto]|].
      intros I. apply IH. rewrite (skipn_nth_cons _ None j) in I by (rewrite dl_length; cbn; lia). destruct I as [I|I]; [congruence|exact I].
    + specialize (IH (S j) ltac:(lia)). destruct (find_param a id n (S j)) as [k|]; [destruct IH; split; [lia|auto]|].
      intros I. apply IH. rewrite (skipn_nth_cons _ None j) in I by (rewrite dl_length; cbn; lia). destruct I as [I|I]; [congruence|exact I].
Qed.

Lemma named_all P : named P -> forall i, i < length P -> exists n, nth i P None = Some n.
Proof. intros N i Hi. destruct (nth i P None) as [n|] eqn:E; [eauto|]. exfalso. apply N. rewrite <- E. now apply nth_In. Qed.

Lemma align_loop_ok s a : named (dl s Param) -> forall n i sp E, i + n = nparam s -> wf sp -> dl sp Param = dl a Param ++ E ->
  exists sp' pos, align_loop s a sp n i = Some (sp', pos) /\ wf sp' /\ tup_in sp' = tup_in sp /\ tup_out sp' = tup_out sp /\
    dl sp' Param = dl a Param ++ E ++ filter (fun m => negb (mem m (dl a Param))) (skipn i (dl s Param)) /\
    length pos = n /\ forall k, k < n -> nth k pos 0 < nparam sp' /\ nth (nth k pos 0) (dl sp' Param) None = nth (i + k) (dl s Param) None.
Proof.
  intros Nm. induction n as [|n IH]; intros i sp E Hi W P; cbn [align_loop].
  { exists sp, []. rewrite skipn_all2 by (rewrite dl_length; cbn; lia). cbn [filter]. rewrite app_nil_r. repeat split; auto; lia. }
  assert (Li : i < length (dl s Param)) by (rewrite dl_length; cbn; lia).
  destruct (named_all _ Nm i Li) as (id & Eid). pose proof (nth_dl s Param i) as G. rewrite <- G, Eid.
  rewrite (skipn_nth_cons _ None i Li), Eid. cbn [filter].
  pose proof (find_ok a id (nparam a) 0 eq_refl) as Fd. destruct (find_param a id (nparam a) 0) as [j|].
  - destruct Fd as [Hj Nj]. destruct (IH (S i) sp E ltac:(lia) W P) as (sp' & pos & -> & W' & T1 & T2 & P' & L & Q). cbn [bind fst snd].
    exists sp', (j :: pos). split; [reflexivity|]. split; [exact W'|]. split; [exact T1|]. split; [exact T2|].
    assert (M : mem (Some id) (dl a Param) = true) by (apply mem_true; rewrite <- Nj; apply nth_In; rewrite dl_length; cbn; lia).
    rewrite M. cbn [negb]. split; [exact P'|]. split; [cbn; lia|]. intros [|k] Hk; cbn [nth].
    + rewrite Nat.add_0_r, Eid. split.
      * pose proof (dl_length sp' Param) as LL. rewrite P', app_length, dl_length in LL. cbn [dim] in LL. lia.
      * rewrite P', app_nth1 by (rewrite dl_length; cbn; lia). exact Nj.
    + rewrite <- Nat.add_succ_comm. apply Q. lia.
  - cbn [skipn] in Fd. destruct (add_params_ok 1 sp W) as (sp1 & -> & W1 & P1 & A1 & B1). cbn [bind].
    assert (N1 : nparam sp1 = nparam sp + 1). { pose proof (dl_length sp1 Param) as LL. rewrite P1, app_length, dl_length in LL. cbn in LL. lia. }
    destruct (set_param_id_ok (nparam sp) (Some id) sp1 W1) as (sp2 & -> & W2 & P2 & A2 & B2); [lia|]. cbn [bind].
    assert (P2' : dl sp2 Param = dl a Param ++ E ++ [Some id]).
    { rewrite P2, P1, app_assoc, <- P. unfold update. cbn [repeat]. replace (nparam sp) with (length (dl sp Param)) by apply dl_length.
      rewrite firstn_app, firstn_all, Nat.sub_diag, firstn_O, app_nil_r. rewrite skipn_all2 by (rewrite app_length; cbn; lia). reflexivity. }
    destruct (IH (S i) sp2 _ ltac:(lia) W2 P2') as (sp' & pos & -> & W' & T1 & T2 & P' & L & Q). cbn [bind fst snd].
    exists sp', (nparam sp :: pos). split; [reflexivity|]. split; [exact W'|]. split; [congruence|]. split; [congruence|].
    rewrite (proj2 (mem_false id (dl a Param)) Fd). cbn [negb]. rewrite <- app_assoc in P'. split; [exact P'|]. split; [cbn; lia|].
    assert (LL : nparam sp = length (dl a Param ++ E)) by (rewrite <- P, dl_length; reflexivity).
    intros [|k] Hk; cbn [nth].
    + rewrite Nat.add_0_r, Eid. cbn [app] in P'. rewrite P'. split.
      * pose proof (dl_length sp' Param) as L'. rewrite P', app_assoc, app_length, <- LL in L'. cbn [length dim] in L'. lia.
      * rewrite app_assoc, LL, app_nth2, Nat.sub_diag by lia. reflexivity.
    + rewrite <- Nat.add_succ_comm. apply Q. lia.
Qed.
Lemma nth_map_seq (f : nat -> nat) a n i : i < n -> nth i (map f (seq a n)) 0 = f (a + i).
Proof. intros H. rewrite (nth_indep _ 0 (f 0)) by now rewrite map_length, seq_length. rewrite map_nth, seq_nth by exact H. reflexivity. Qed.

Lemma same_dims s s' : tup_in s' = tup_in s -> tup_out s' = tup_out s -> n_in s' = n_in s /\ n_out s' = n_out s.
Proof.
  intros A B. rewrite !tup_in_eq in A. rewrite !tup_out_eq in B. injection A as _ A _. injection B as _ B _.
  apply (f_equal (@length _)) in A, B. rewrite !dl_length in A, B. cbn [dim] in A, B. lia.
Qed.
Lemma alignment_ok s a : wf s -> named (dl s Param) ->
  exists r, alignment s a = Some r /\ spc (r_space r) (V (aligned (dl s Param) (dl a Param)) (tup_in s) (tup_out s)) /\
    r_dst r = dim_all (r_space r) /\ length (r_pos r) = dim_all s /\
    (forall i, i < nparam s -> nth i (r_pos r) 0 < nparam (r_space r) /\ nth (nth i (r_pos r) 0) (aligned (dl s Param) (dl a Param)) None = nth i (dl s Param) None) /\
    (forall i, i < n_in s + n_out s -> nth (nparam s + i) (r_pos r) 0 = nparam (r_space r) + i).
Proof.
  intros W Nm. unfold alignment. destruct (replace_params_ok s a W) as (sp & -> & W1 & P1 & T1 & T2). cbn [bind].
  destruct (align_loop_ok s a Nm (nparam s) 0 sp [] eq_refl W1) as (sp' & pos & -> & W' & A & B & P & L & Q); [now rewrite app_nil_r|]. cbn [bind fst snd].
  cbn [app skipn] in P. fold (aligned (dl s Param) (dl a Param)) in P. rewrite T1 in A. rewrite T2 in B.
  eexists. split; [reflexivity|]. cbn [r_space r_dst r_pos]. split; [split; [exact W'|]; unfold view_of; now rewrite P, A, B|]. split; [reflexivity|].
  destruct (same_dims _ _ A B) as [D1 D2].
  split. { rewrite app_length, map_length, seq_length, L. unfold dim_all. lia. }
  split.
  - intros i Hi. rewrite app_nth1 by lia. rewrite <- P. apply (Q i Hi).
  - intros i Hi. rewrite app_nth2 by lia. rewrite L. replace (nparam s + i - nparam s) with i by lia. rewrite nth_map_seq by (unfold dim_all; lia). unfold dim_all. lia.
Qed.
Lemma alignment_unnamed s a : wf s -> ~ named (dl s Param) -> alignment s a = None.
Proof.
  intros W Nn. unfold alignment. destruct (replace_params_ok s a W) as (sp & -> & W1 & P1 & T1 & T2). cbn [bind].
  enough (X : forall n i sp, i + n = nparam s -> List.In None (skipn i (dl s Param)) -> align_loop s a sp n i = None).
  { rewrite X; [reflexivity|reflexivity|]. cbn [skipn]. destruct (in_dec (fun a b : option Z => ltac:(decide equality; apply Z.eq_dec)) None (dl s Param)) as [Y|Y]; [exact Y|contradiction]. }
  clear. induction n as [|n IH]; intros i sp Hi I; cbn [align_loop].
  - rewrite skipn_all2 in I by (rewrite dl_length; cbn; lia). destruct I.
  - assert (Li : i < length (dl s Param)) by (rewrite dl_length; cbn; lia).
    pose proof (nth_dl s Param i) as G. rewrite (skipn_nth_cons _ None i Li), G in I.
    destruct (get_id s Param i) as [id|] eqn:E; [|reflexivity]. destruct I as [I|I]; [discriminate|].
    destruct (find_param a id (nparam a) 0); [rewrite IH by (auto; lia); reflexivity|].
    destruct (add_dims sp Param 1) as [sp1|]; [|reflexivity]. cbn [bind]. destruct (set_dim_id sp1 Param (nparam sp) (Some id)) as [sp2|]; [|reflexivity]. cbn [bind].
    rewrite IH by (auto; lia). reflexivity.
Qed.

(** ** positions are different *)
Lemma nodup_nth {A} (l : list A) d i j : NoDup l -> i < length l -> j < length l -> nth i l d = nth j l d -> i = j.
Proof. intros N. apply (proj1 (NoDup_nth l d) N). Qed.
Lemma nodup_by_nth (l : list nat) : (forall i j, i < length l -> j < length l -> nth i l 0 = nth j l 0 -> i = j) -> NoDup l.
Proof. intros H. apply (NoDup_nth l 0). exact H. Qed.
Lemma forall_by_nth (P : nat -> Prop) (l : list nat) : (forall i, i < length l -> P (nth i l 0)) -> Forall P l.
Proof. intros H. apply Forall_forall. intros x I. apply (In_nth _ _ 0) in I. destruct I as (i & Hi & <-). auto. Qed.

(** what is known about the reordering of an alignment *)
Record alignment_of (s a : space) (r : reordering) : Prop := {
  ao_spc : spc (r_space r) (V (aligned (dl s Param) (dl a Param)) (tup_in s) (tup_out s));
  ao_dst : r_dst r = dim_all (r_space r);
  ao_len : length (r_pos r) = dim_all s;
  ao_par : forall i, i < nparam s -> nth i (r_pos r) 0 < nparam (r_space r) /\ nth (nth i (r_pos r) 0) (aligned (dl s Param) (dl a Param)) None = nth i (dl s Param) None;
  ao_oth : forall i, i < n_in s + n_out s -> nth (nparam s + i) (r_pos r) 0 = nparam (r_space r) + i }.
Lemma alignment_of_ok s a : wf s -> named (dl s Param) -> exists r, alignment s a = Some r /\ alignment_of s a r.
Proof. intros W N. destruct (alignment_ok s a W N) as (r & E & A & B & C & D & F). exists r. split; [exact E|]. constructor; assumption. Qed.
Lemma ao_dims s a r : alignment_of s a r -> n_in (r_space r) = n_in s /\ n_out (r_space r) = n_out s /\ dl (r_space r) Param = aligned (dl s Param) (dl a Param) /\ length (aligned (dl s Param) (dl a Param)) = nparam (r_space r).
Proof.
  intros H. destruct (ao_spc _ _ _ H) as [W E]. unfold view_of in E. injection E as E1 E2 E3. destruct (same_dims _ _ E2 E3) as [-> ->].
  repeat split; auto. rewrite <- E1. apply dl_length.
Qed.
Lemma ao_good s a r : alignment_of s a r -> NoDup (dl s Param) -> good r (dim_all (r_space r)).
Proof.
  intros H N. destruct (ao_dims _ _ _ H) as (D1 & D2 & D3 & D4). pose proof (ao_len _ _ _ H) as L. pose proof (ao_par _ _ _ H) as Pa. pose proof (ao_oth _ _ _ H) as Ot.
  assert (X : forall i, i < length (r_pos r) -> (i < nparam s /\ nth i (r_pos r) 0 < nparam (r_space r)) \/ (nparam s <= i /\ nth i (r_pos r) 0 = nparam (r_space r) + (i - nparam s))).
  { intros i Hi. rewrite L in Hi. destruct (Nat.lt_ge_cases i (nparam s)) as [H1|H1]; [left; split; [exact H1|apply (Pa i H1)]|]. right. split; [exact H1|].
    rewrite <- Ot by (unfold dim_all in Hi; lia). f_equal. lia. }
  split.
  - apply nodup_by_nth. intros i j Hi Hj E. destruct (X i Hi) as [[A B]|[A B]]; destruct (X j Hj) as [[A' B']|[A' B']]; try lia.
    apply (nodup_nth (dl s Param) None i j N); try (rewrite dl_length; assumption). destruct (Pa i A) as [_ <-]. destruct (Pa j A') as [_ <-]. now rewrite E.
  - apply forall_by_nth. intros i Hi. rewrite L in *. unfold dim_all in *. rewrite D1, D2. destruct (X i Hi) as [[A B]|[A B]]; lia.
Qed.
(** the reordered point has the same values *)
Lemma ao_pull s a r p q x : alignment_of s a r -> named (dl s Param) -> length p = nparam s -> length q = nparam (r_space r) -> length x = n_in s + n_out s ->
  agree (dl s Param) p (dl (r_space r) Param) q -> pull (r_pos r) (q ++ x) = p ++ x.
Proof.
  intros H Nm Lp Lq Lx Ag. destruct (ao_dims _ _ _ H) as (D1 & D2 & D3 & D4). pose proof (ao_len _ _ _ H) as L. pose proof (ao_par _ _ _ H) as Pa. pose proof (ao_oth _ _ _ H) as Ot.
  unfold pull. apply (nth_ext _ _ 0%Z 0%Z); [rewrite map_length, app_length, L; unfold dim_all; lia|].
  intros i Hi. rewrite map_length, L in Hi. rewrite (nth_indep _ 0%Z (nth 0 (q ++ x) 0%Z)) by now rewrite map_length, L.
  rewrite (map_nth (fun k => nth k (q ++ x) 0%Z)). destruct (Nat.lt_ge_cases i (nparam s)) as [H1|H1].
  - destruct (Pa i H1) as [B E]. rewrite app_nth1 by lia. rewrite app_nth1 by lia. destruct (named_all _ Nm i) as (n & En); [rewrite dl_length; exact H1|].
    symmetry. apply (Ag _ _ n).
    + rewrite <- En. apply nth_error_nth'. rewrite dl_length. exact H1.
    + rewrite D3. rewrite <- En, <- E. apply nth_error_nth'. lia.
  - replace i with (nparam s + (i - nparam s)) by lia. unfold dim_all in Hi. rewrite Ot by lia. rewrite app_nth2, app_nth2 by lia. f_equal. lia.
Qed.

(** ** basic maps *)
Definition bm_ok (s : space) (b : bmap) : Prop := b_param b = nparam s /\ b_in b = n_in s /\ b_out b = n_out s /\ BMapSem.wf b /\ acyclic b.
Lemma nvar_dim s b : bm_ok s b -> nvar b = dim_all s.
Proof. intros (A & B & C & _). unfold nvar, dim_all. lia. Qed.
Lemma Forall_map_iff {A B} (f : A -> B) (P : B -> Prop) l : Forall P (map f l) <-> Forall (fun x => P (f x)) l.
Proof. induction l as [|x l IH]; cbn; [split; auto|]. split; intros H; inversion H; subst; constructor; tauto. Qed.
Lemma Forall_equiv {A} (P Q R : A -> Prop) l : Forall R l -> (forall x, R x -> (P x <-> Q x)) -> (Forall P l <-> Forall Q l).
Proof. intros F H. induction F; [split; auto|]. split; intros X; inversion X; subst; constructor; try (apply H; assumption); tauto. Qed.
Lemma copy_length r b : length (copy_constraint (dm_extend (dm_from r) b) []) = 1 + dim_all (r_space r) + ndiv b.
Proof.
  unfold copy_constraint, dm_extend, dm_from, dm_alloc. rewrite map_length, app_length, map_length, seq_length.
  destruct (dm_set_cons (r_pos r) (0, 1%Z) (repeat (0, 0%Z) (dim_all (r_space r))) 0) as (m' & -> & L). rewrite repeat_length in L. cbn [length]. lia.
Qed.
Lemma copy_length' r b row : length (copy_constraint (dm_extend (dm_from r) b) row) = 1 + dim_all (r_space r) + ndiv b.
Proof. rewrite <- copy_length. unfold copy_constraint. now rewrite !map_length. Qed.
Lemma nth_copy_div r b row k : length row = 1 + nvar b + ndiv b ->
  nth (1 + dim_all (r_space r) + k) (copy_constraint (dm_extend (dm_from r) b) row) 0%Z = nth (1 + nvar b + k) row 0%Z.
Proof.
  intros L. destruct row as [|c row]; [cbn in L; lia|]. cbn [length] in L. rewrite copy_ok by lia. cbn [Nat.add nth].
  rewrite app_nth2 by (rewrite scatter_length, repeat_length; lia). rewrite scatter_length, repeat_length, nth_skipn. f_equal. lia.
Qed.

Lemma realign_ok s a r b : alignment_of s a r -> NoDup (dl s Param) -> bm_ok s b ->
  exists b', realign b (r_space r) (dm_extend (dm_from r) b) = Ok (r_space r, b') /\ b_param b' = nparam (r_space r) /\ b_in b' = n_in s /\ b_out b' = n_out s /\ b_rat b' = b_rat b /\
    BMapSem.wf b' /\ ordered b' /\ forall d w, length w = dim_all (r_space r) -> (0 < d)%Z -> (points b' (d :: w) <-> points b (d :: pull (r_pos r) w)).
Proof.
  intros H N OK. pose proof (nvar_dim _ _ OK) as NV. destruct OK as (B1 & B2 & B3 & (W1 & W2 & W3) & (rank & RK)).
  destruct (ao_dims _ _ _ H) as (D1 & D2 & D3 & D4). pose proof (ao_good _ _ _ H N) as G. pose proof (ao_len _ _ _ H) as L.
  unfold realign, add_constraints, set_eq, set_ineq, set_div. cbn [b_param b_in b_out b_eq b_ineq b_div b_rat b_empty b_nd app].
  set (b1 := mkb _ _ _ _ _ _ _ _ _). set (m := dm_extend (dm_from r) b) in *.
  assert (ND : ndiv b1 = ndiv b) by (unfold ndiv, b1; cbn [b_div]; apply map_length).
  assert (NV1 : nvar b1 = dim_all (r_space r)) by reflexivity.
  assert (Wf : BMapSem.wf b1).
  { unfold BMapSem.wf, rows_of, total. rewrite ND, NV1. unfold b1. cbn [b_eq b_ineq b_div]. rewrite !Forall_map_iff. repeat split.
    - apply Forall_forall. intros row _. unfold m. rewrite copy_length'. lia.
    - apply Forall_forall. intros row _. unfold m. rewrite copy_length'. lia.
    - apply Forall_forall. intros row _. unfold copy_div. cbn [length]. unfold m. rewrite copy_length'. lia. }
  assert (Ac : acyclic b1).
  { exists rank. rewrite ND, NV1. intros k j Hk Hj. unfold b1. cbn [b_div].
    rewrite (nth_indep _ [] (copy_div m [])) by (rewrite map_length; exact Hk). rewrite map_nth. unfold copy_div at 1 2. cbn [hd]. cbn [Nat.add nth].
    assert (Lr : length (nth k (b_div b) []) = 2 + total b). { apply (proj1 (Forall_forall _ _) W3). apply nth_In. exact Hk. }
    change (S (dim_all (r_space r) + j)) with (1 + dim_all (r_space r) + j). unfold m. rewrite nth_copy_div; [|unfold total in Lr; destruct (nth k (b_div b) []); cbn in *; lia].
    intros H1 H2. apply (RK k j Hk Hj H1). destruct (nth k (b_div b) []); [cbn in Lr; lia|exact H2]. }
  destruct (gauss_ok b1 Wf Ac) as (b' & p & -> & (S1 & S2 & S3 & S4) & W' & O' & _ & Q & _).
  exists b'. split; [reflexivity|]. split; [exact S1|]. split; [rewrite S2; exact D1|]. split; [rewrite S3; exact D2|]. split; [exact S4|]. split; [exact W'|]. split; [exact O'|].
  intros d w Lw Hd. rewrite <- (Q (d :: w)) by (cbn [length hd]; rewrite ?NV1; auto; lia).
  assert (X : forall e, length e = ndiv b -> forall row, length row = 1 + total b -> dot (copy_constraint m row) ((d :: w) ++ e) = dot row ((d :: pull (r_pos r) w) ++ e)).
  { intros e Le [|c row] Lr; [cbn in Lr; lia|]. cbn [app]. unfold m. unfold total in Lr; cbn in Lr; apply dot_copy; auto; try (unfold r_src); lia. }
  unfold points, member, described, system. rewrite ND. unfold b1. cbn [b_empty b_eq b_ineq].
  assert (Y : forall e, length e = ndiv b -> (Forall (zero_on ((d :: w) ++ e)) (map (copy_constraint m) (b_eq b)) <-> Forall (zero_on ((d :: pull (r_pos r) w) ++ e)) (b_eq b)) /\
     (Forall (nonneg_on ((d :: w) ++ e)) (map (copy_constraint m) (b_ineq b)) <-> Forall (nonneg_on ((d :: pull (r_pos r) w) ++ e)) (b_ineq b))).
  { intros e Le. rewrite !Forall_map_iff. split; (eapply Forall_equiv; [eassumption|]); intros row Lr; unfold zero_on, nonneg_on; rewrite X by auto; tauto. }
  split; intros (Em & e & Le & Hs); (split; [exact Em|]); exists e; (split; [exact Le|]); destruct (Y e Le) as [Y1 Y2]; tauto.
Qed.

(** ** final statements *)
Lemma has_named_iff s : wf s -> has_named_params s = true <-> named (dl s Param).
Proof.
  intros W. pose proof (wf_okids s W) as O. unfold has_named_params. destruct (Nat.eqb_spec (nparam s) 0) as [E|E].
  { split; [intros _|reflexivity]. unfold named. assert (L : length (dl s Param) = 0) by (rewrite dl_length; exact E). apply length_zero_iff_nil in L. rewrite L. intros []. }
  assert (G : forall i, i < nparam s -> get_id s Param i = nth i (idl s) None).
  { intros i Hi. unfold get_id, check_range. cbn [dim offset]. rewrite (proj2 (Nat.leb_le (i + 1) (nparam s))) by lia. reflexivity. }
  assert (X : named (dl s Param) <-> forall i, i < nparam s -> is_some (nth i (idl s) None) = true).
  { split.
    - intros Nm i Hi. destruct (named_all _ Nm i) as (n & En); [rewrite dl_length; exact Hi|]. rewrite nth_dl, G in En by exact Hi. now rewrite En.
    - intros H I. apply (In_nth _ _ None) in I. destruct I as (i & Hi & I). rewrite dl_length in Hi. rewrite nth_dl, G in I by exact Hi. specialize (H i Hi). now rewrite I in H. }
  rewrite X. clear X. destruct (Nat.ltb_spec (n_id s) (nparam s)) as [H|H].
  - split; [discriminate|]. intros A. specialize (A (n_id s) H). rewrite nth_overflow in A by (unfold n_id; lia). discriminate.
  - rewrite forallb_forall. split; intros A i Hi; apply A; [apply in_seq; lia|apply in_seq in Hi; lia].
Qed.
Lemma has_named_true s : wf s -> named (dl s Param) -> has_named_params s = true.
Proof. intros W N. apply has_named_iff; assumption. Qed.
Lemma has_named_false s : wf s -> ~ named (dl s Param) -> has_named_params s = false.
Proof. intros W N. destruct (has_named_params s) eqn:E; [|reflexivity]. exfalso. apply N. apply has_named_iff; auto. Qed.
Lemma filter_none {A} (f : A -> bool) l : (forall x, List.In x l -> f x = false) -> filter f l = [].
Proof. induction l as [|x l IH]; intros H; cbn; [reflexivity|]. rewrite (H x) by now left. apply IH. intros y I. apply H. now right. Qed.
Lemma aligned_refl P : named P -> aligned P P = P.
Proof.
  intros N. unfold aligned. rewrite filter_none; [apply app_nil_r|]. intros [n|] I; [|contradiction].
  now rewrite (proj2 (mem_true n P) I).
Qed.
Lemma agree_refl P p q : named P -> NoDup P -> length p = length P -> length q = length P -> agree P p P q -> p = q.
Proof.
  intros N D Lp Lq A. apply (nth_ext _ _ 0%Z 0%Z); [lia|]. intros i Hi. destruct (named_all P N i) as (n & E); [lia|].
  apply (A i i n); rewrite <- E; apply nth_error_nth'; lia.
Qed.
Lemma align_params_ok s1 s2 : wf s1 -> wf s2 -> named (dl s1 Param) -> named (dl s2 Param) ->
  exists s', align_params s1 s2 = Some s' /\ spc s' (V (aligned (dl s1 Param) (dl s2 Param)) (tup_in s1) (tup_out s1)).
Proof.
  intros W1 W2 N1 N2. unfold align_params. rewrite !has_named_true by assumption. cbn [negb].
  destruct (alignment_of_ok s1 s2 W1 N1) as (r & -> & H). cbn [bind]. exists (r_space r). split; [reflexivity|]. apply (ao_spc _ _ _ H).
Qed.
Lemma align_params_unnamed s1 s2 : wf s1 -> wf s2 -> ~ (named (dl s1 Param) /\ named (dl s2 Param)) -> align_params s1 s2 = None.
Proof.
  intros W1 W2 H. unfold align_params. destruct (has_named_params s1) eqn:E1; [|reflexivity]. destruct (has_named_params s2) eqn:E2; [|reflexivity].
  exfalso. apply H. split; apply has_named_iff; assumption.
Qed.
Lemma ordered_acyclic b : ordered b -> acyclic b.
Proof. intros O. exists (fun k => k). intros k j Hk Hj H1 H2. destruct (Nat.lt_ge_cases j k) as [X|X]; [exact X|]. exfalso. apply H2. now apply O. Qed.

Lemma bmap_align_ok s b m : wf s -> wf m -> bm_ok s b -> named (dl s Param) -> named (dl m Param) -> NoDup (dl s Param) ->
  exists s' b', bmap_align_params (s, b) m = Ok (s', b') /\ spc s' (V (aligned (dl s Param) (dl m Param)) (tup_in s) (tup_out s)) /\ bm_ok s' b' /\ b_rat b' = b_rat b /\
    forall d p q x, (0 < d)%Z -> length p = nparam s -> length q = nparam s' -> length x = n_in s + n_out s -> agree (dl s Param) p (dl s' Param) q ->
      (points b' (d :: q ++ x) <-> points b (d :: p ++ x)).
Proof.
  intros Ws Wm OK Ns Nm D. unfold bmap_align_params. cbn [fst snd]. rewrite !has_named_true by assumption. cbn [negb].
  destruct (has_equal_params s m) eqn:E.
  - apply equal_params_ok in E. exists s, b. split; [reflexivity|]. rewrite <- E, aligned_refl by assumption. split; [split; [exact Ws|reflexivity]|]. split; [exact OK|]. split; [reflexivity|].
    intros d p q x Hd Lp Lq Lx Ag. pose proof (dl_length s Param) as L. cbn [dim] in L. rewrite (agree_refl (dl s Param) p q) by (auto; lia). reflexivity.
  - destruct (alignment_of_ok s m Ws Ns) as (r & -> & H). destruct (realign_ok s m r b H D OK) as (b' & -> & B1 & B2 & B3 & B4 & W' & O' & Q).
    destruct (ao_dims _ _ _ H) as (D1 & D2 & D3 & D4).
    exists (r_space r), b'. split; [reflexivity|]. split; [apply (ao_spc _ _ _ H)|]. split; [repeat split; try congruence; try apply W'; now apply ordered_acyclic|]. split; [exact B4|].
    intros d p q x Hd Lp Lq Lx Ag. rewrite Q by (auto; rewrite app_length; unfold dim_all; lia). rewrite (ao_pull s m r p q x) by auto. reflexivity.
Qed.
Lemma bmap_align_unnamed s b m : wf s -> wf m -> ~ (named (dl s Param) /\ named (dl m Param)) -> bmap_align_params (s, b) m = Null.
Proof.
  intros W1 W2 H. unfold bmap_align_params. cbn [fst snd]. destruct (has_named_params m) eqn:E1; [|reflexivity]. destruct (has_named_params s) eqn:E2; [|reflexivity].
  exfalso. apply H. split; apply has_named_iff; assumption.
Qed.
Lemma map_align_ok s l m : wf s -> wf m -> Forall (bm_ok s) l -> named (dl s Param) -> named (dl m Param) -> NoDup (dl s Param) ->
  exists s' l', map_align_params (s, l) m = Ok (s', l') /\ spc s' (V (aligned (dl s Param) (dl m Param)) (tup_in s) (tup_out s)) /\ Forall (bm_ok s') l' /\
    forall d p q x, (0 < d)%Z -> length p = nparam s -> length q = nparam s' -> length x = n_in s + n_out s -> agree (dl s Param) p (dl s' Param) q ->
      (Exists (fun b => points b (d :: q ++ x)) l' <-> Exists (fun b => points b (d :: p ++ x)) l).
Proof.
  intros Ws Wm OK Ns Nm D. unfold map_align_params. cbn [fst snd]. rewrite !has_named_true by assumption. cbn [negb].
  destruct (has_equal_params s m) eqn:E.
  - apply equal_params_ok in E. exists s, l. split; [reflexivity|]. rewrite <- E, aligned_refl by assumption. split; [split; [exact Ws|reflexivity]|]. split; [exact OK|].
    intros d p q x Hd Lp Lq Lx Ag. pose proof (dl_length s Param) as L. cbn [dim] in L. rewrite (agree_refl (dl s Param) p q) by (auto; lia). reflexivity.
  - destruct (alignment_of_ok s m Ws Ns) as (r & -> & H). unfold map_realign. cbn [snd].
    destruct (ao_dims _ _ _ H) as (D1 & D2 & D3 & D4).
    assert (X : exists l', map_realign_loop l r = Ok l' /\ Forall (bm_ok (r_space r)) l' /\
      forall d w, length w = dim_all (r_space r) -> (0 < d)%Z -> (Exists (fun b => points b (d :: w)) l' <-> Exists (fun b => points b (d :: pull (r_pos r) w)) l)).
    { induction OK as [|b l OK _ IH]; cbn [map_realign_loop]. { exists []. split; [reflexivity|]. split; [constructor|]. intros. split; intros X; inversion X. }
      destruct (realign_ok s m r b H D OK) as (b' & -> & B1 & B2 & B3 & B4 & W' & O' & Q). destruct IH as (l' & -> & F & Q').
      exists (b' :: l'). split; [reflexivity|]. split; [constructor; [repeat split; try congruence; try apply W'; now apply ordered_acyclic|exact F]|].
      intros d w Lw Hd. rewrite !Exists_cons, Q, Q' by assumption. reflexivity. }
    destruct X as (l' & -> & F & Q). exists (r_space r), l'. split; [reflexivity|]. split; [apply (ao_spc _ _ _ H)|]. split; [exact F|].
    intros d p q x Hd Lp Lq Lx Ag. rewrite Q by (auto; rewrite app_length; unfold dim_all; lia). rewrite (ao_pull s m r p q x) by auto. reflexivity.
Qed.
Lemma map_align_unnamed s l m : wf s -> wf m -> ~ (named (dl s Param) /\ named (dl m Param)) -> map_align_params (s, l) m = Null.
Proof.
  intros W1 W2 H. unfold map_align_params. cbn [fst snd]. destruct (has_named_params m) eqn:E1; [|reflexivity]. destruct (has_named_params s) eqn:E2; [|reflexivity].
  exfalso. apply H. split; apply has_named_iff; assumption.
Qed.

(** ** affine expressions *)
Definition af_ok (a : aff) : Prop :=
  wf (a_space a) /\ length (a_v a) = 2 + dim_all (a_space a) + length (a_div a) /\ Forall (fun d => length d = 2 + dim_all (a_space a) + length (a_div a)) (a_div a).
Lemma extend_pos r k : r_pos (extend r k) = r_pos r ++ map (fun i => r_dst r + i - r_src r) (seq (r_src r) k) /\ r_dst (extend r k) = r_dst r + k /\ r_space (extend r k) = r_space r.
Proof. unfold extend. destruct (Nat.eqb_spec k 0) as [->|H]; cbn [r_pos r_dst r_space]; [cbn; rewrite app_nil_r; auto|auto]. Qed.
Lemma NoDup_app' {A} (l1 l2 : list A) : NoDup l1 -> NoDup l2 -> (forall x, List.In x l1 -> List.In x l2 -> False) -> NoDup (l1 ++ l2).
Proof.
  induction l1 as [|x l1 IH]; intros N1 N2 H; [exact N2|]. inversion N1; subst. cbn. constructor.
  - intros I. apply in_app_or in I. destruct I as [I|I]; [contradiction|]. apply (H x); [now left|exact I].
  - apply IH; auto. intros y I J. apply (H y); [now right|exact J].
Qed.
Lemma extend_good s a r k : alignment_of s a r -> NoDup (dl s Param) -> good (extend r k) (r_dst (extend r k)).
Proof.
  intros H N. destruct (ao_good _ _ _ H N) as [G1 G2]. unfold good. destruct (extend_pos r k) as (ext & -> & _). rewrite <- (ao_dst _ _ _ H) in G2.
  assert (X : forall i, List.In i (map (fun i => r_dst r + i - r_src r) (seq (r_src r) k)) -> r_dst r <= i < r_dst r + k).
  { intros i I. apply in_map_iff in I. destruct I as (j & <- & I). apply in_seq in I. lia. }
  rewrite ext. split.
  - apply NoDup_app'; [exact G1| |].
    + clear - X. assert (S : forall n a, a >= r_src r -> NoDup (map (fun i => r_dst r + i - r_src r) (seq a n))).
      { induction n as [|n IH]; intros b Hb; cbn; constructor; [|apply IH; lia]. intros I. apply in_map_iff in I. destruct I as (j & E & I). apply in_seq in I. lia. }
      apply S. lia.
    + intros p I J. rewrite Forall_forall in G2. specialize (G2 p I). specialize (X p J). lia.
  - apply Forall_app. split; [|apply Forall_forall; intros p I; apply X in I; lia]. eapply Forall_impl; [|exact G2]. cbn. intros. lia.
Qed.
Lemma extend_pull r k w e : Forall (fun p => p < r_dst r) (r_pos r) -> length w = r_dst r -> length e = k ->
  pull (r_pos (extend r k)) (w ++ e) = pull (r_pos r) w ++ e.
Proof.
  intros F Lw Le. destruct (extend_pos r k) as (-> & _ & _). unfold pull. rewrite map_app. f_equal.
  - apply map_ext_in. intros p I. rewrite Forall_forall in F. apply app_nth1. rewrite Lw. auto.
  - apply (nth_ext _ _ 0%Z 0%Z); [rewrite !map_length, seq_length; lia|]. intros i Hi. rewrite !map_length, seq_length in Hi.
    rewrite map_map. rewrite (nth_indep _ 0%Z (nth (r_dst r + 0 - r_src r) (w ++ e) 0%Z)) by now rewrite map_length, seq_length.
    rewrite (map_nth (fun x => nth (r_dst r + x - r_src r) (w ++ e) 0%Z)), seq_nth by exact Hi. rewrite app_nth2 by lia. f_equal. lia.
Qed.

Lemma reorder_row r k row d w e : length row = 2 + r_src r + k -> length w = r_dst r -> length e = k -> good (extend r k) (r_dst r + k) -> Forall (fun p => p < r_dst r) (r_pos r) ->
  forall n, n = r_dst r + k ->
  let row' := firstn 2 row ++ scatter (repeat 0%Z n) (skipn 2 row) (r_pos (extend r k)) 0 in
  length row' = 2 + r_dst r + k /\ hd 0%Z row' = hd 0%Z row /\ dot (tl row') (d :: w ++ e) = dot (tl row) (d :: pull (r_pos r) w ++ e).
Proof.
  intros L Lw Le [G1 G2] F n ->. destruct row as [|c0 [|c1 row]]; cbn [length] in L; try lia. cbn [firstn skipn app hd tl length].
  split; [rewrite scatter_length, repeat_length; lia|]. split; [reflexivity|]. cbn [dot]. f_equal.
  rewrite dot_scatter0; auto.
  - now rewrite extend_pull.
  - rewrite app_length. lia.
  - destruct (extend_pos r k) as (-> & _). rewrite app_length, map_length, seq_length. fold (r_src r). lia.
Qed.
Lemma aff_align_ok a m : af_ok a -> named (dl (a_space a) Param) -> NoDup (dl (a_space a) Param) ->
  exists a', aff_align_params a m = Some a' /\ af_ok a' /\ view_of (a_space a') = V (aligned (dl (a_space a) Param) (dl m Param)) (tup_in (a_space a)) (tup_out (a_space a)) /\
    length (a_div a') = length (a_div a) /\ hd 0%Z (a_v a') = hd 0%Z (a_v a) /\
    forall d p q x e, length p = nparam (a_space a) -> length q = nparam (a_space a') -> length x = n_in (a_space a) + n_out (a_space a) -> length e = length (a_div a) ->
      agree (dl (a_space a) Param) p (dl (a_space a') Param) q ->
      dot (tl (a_v a')) (d :: q ++ x ++ e) = dot (tl (a_v a)) (d :: p ++ x ++ e) /\
      (divisions (a_div a') (1 + dim_all (a_space a')) (d :: q ++ x ++ e) <-> divisions (a_div a) (1 + dim_all (a_space a)) (d :: p ++ x ++ e)).
Proof.
  intros (W & Lv & Fd) Nm D. unfold aff_align_params. destruct (has_equal_params (a_space a) m) eqn:E.
  - apply equal_params_ok in E. exists a. split; [reflexivity|]. rewrite <- E, aligned_refl by assumption. split; [repeat split; assumption|]. split; [reflexivity|]. split; [reflexivity|]. split; [reflexivity|].
    intros d p q x e Lp Lq Lx Le Ag. pose proof (dl_length (a_space a) Param) as L. cbn [dim] in L. rewrite (agree_refl (dl (a_space a) Param) p q) by (auto; lia). split; reflexivity.
  - destruct (alignment_of_ok (a_space a) m W Nm) as (r & -> & H). cbn [bind]. destruct (ao_dims _ _ _ H) as (D1 & D2 & D3 & D4).
    pose proof (ao_len _ _ _ H) as L. fold (r_src r) in L. pose proof (ao_dst _ _ _ H) as Ds. destruct (ao_spc _ _ _ H) as [W' Vw]. destruct (ao_good _ _ _ H D) as [_ G2]. rewrite <- Ds in G2.
    set (k := length (a_div a)) in *. pose proof (extend_good _ _ r k H D) as G. destruct (extend_pos r k) as (Ep & Ed & Es). rewrite Ed in G.
    unfold aff_realign_domain. fold k. eexists. split; [reflexivity|]. cbn [a_space a_div a_v]. rewrite Es. unfold vec_reorder, local_reorder. rewrite Ed. rewrite map_length. fold k.
    assert (Sx : r_src (extend r k) = r_src r + k) by (unfold r_src; rewrite Ep, app_length, map_length, seq_length; reflexivity).
    rewrite Sx. replace (2 + dim_all (a_space a) + k + (r_dst r + k) - (r_src r + k) - 2) with (r_dst r + k) by lia.
    pose proof (reorder_row r k) as RR.
    set (z := repeat 0%Z (r_dst r)).
    split; [|split; [exact Vw|split; [reflexivity|split]]].
    + split; [exact W'|]. cbn [a_space a_div a_v]. rewrite map_length. fold k. split.
      * destruct (RR (a_v a) 0%Z z (repeat 0%Z k)) with (n := r_dst r + k) as (A & _); auto; try (unfold z; rewrite repeat_length; reflexivity); lia.
      * apply Forall_map_iff. eapply Forall_impl; [|exact Fd]. intros row Lr. cbn beta in Lr.
        destruct (RR row 0%Z z (repeat 0%Z k)) with (n := r_dst r + k) as (A & _); auto; try (unfold z; rewrite repeat_length; reflexivity); lia.
    + destruct (RR (a_v a) 0%Z z (repeat 0%Z k)) with (n := r_dst r + k) as (_ & A & _); auto; try (unfold z; rewrite repeat_length; reflexivity); lia.
    + intros d p q x e Lp Lq Lx Le Ag.
      assert (Lw : length (q ++ x) = r_dst r) by (rewrite app_length; unfold dim_all in *; lia).
      pose proof (ao_pull _ m r p q x H Nm Lp Lq Lx Ag) as Pu. split.
      * destruct (RR (a_v a) d (q ++ x) e) with (n := r_dst r + k) as (_ & _ & A); auto; [lia|]. rewrite <- app_assoc in A. rewrite A, Pu, <- app_assoc. reflexivity.
      * unfold divisions. rewrite map_length. fold k.
        assert (X : forall i, i < k -> forall v v' o o', v = d :: q ++ x ++ e -> v' = d :: p ++ x ++ e -> o = 1 + dim_all (r_space r) + i -> o' = 1 + dim_all (a_space a) + i ->
          (division (nth i (map (fun d0 => firstn 2 d0 ++ scatter (repeat 0%Z (r_dst r + k)) (skipn 2 d0) (r_pos (extend r k)) 0) (a_div a)) []) (nth o v 0%Z) v <->
           division (nth i (a_div a) []) (nth o' v' 0%Z) v')).
        { intros i Hi v v' o o' -> -> -> ->. set (f := fun d0 => _). rewrite (nth_indep _ [] (f [])) by (rewrite map_length; exact Hi). rewrite map_nth. unfold f.
          destruct (RR (nth i (a_div a) []) d (q ++ x) e) with (n := r_dst r + k) as (_ & A & B); auto.
          { rewrite (proj1 (Forall_forall _ _) Fd) by (apply nth_In; exact Hi). lia. }
          rewrite <- app_assoc in B. unfold division. rewrite A, B, Pu, <- app_assoc. cbn [Nat.add nth].
          rewrite (app_assoc q), (app_assoc p). rewrite (app_nth2 (q ++ x)) by lia. rewrite (app_nth2 (p ++ x)) by (rewrite app_length; unfold dim_all; lia).
          replace (dim_all (r_space r) + i - length (q ++ x)) with i by lia. replace (dim_all (a_space a) + i - length (p ++ x)) with i by (rewrite app_length; unfold dim_all; lia). reflexivity. }
        split; intros Hd i Hi; (eapply X; [exact Hi|reflexivity|reflexivity|reflexivity|reflexivity|]); apply Hd; exact Hi.
Qed.
Lemma aff_align_unnamed a m : wf (a_space a) -> ~ named (dl (a_space a) Param) -> dl (a_space a) Param <> dl m Param -> aff_align_params a m = None.
Proof.
  intros W N E. unfold aff_align_params. destruct (has_equal_params (a_space a) m) eqn:F; [apply equal_params_ok in F; contradiction|].
  now rewrite alignment_unnamed.
Qed.

(** ** extending reorderings *)
Lemma extend_ok' r k : r_pos (extend r k) = r_pos r ++ map (fun i => r_dst r + i - r_src r) (seq (r_src r) k) /\ r_dst (extend r k) = r_dst r + k /\ r_space (extend r k) = r_space r.
Proof. apply extend_pos. Qed.
Lemma extend_nth r k : r_src (extend r k) = r_src r + k /\ r_dst (extend r k) = r_dst r + k /\ r_space (extend r k) = r_space r /\
  (forall i, i < r_src r -> nth i (r_pos (extend r k)) 0 = nth i (r_pos r) 0) /\ (forall i, i < k -> nth (r_src r + i) (r_pos (extend r k)) 0 = r_dst r + i).
Proof.
  destruct (extend_pos r k) as (E & -> & ->). unfold r_src. rewrite E. split; [now rewrite app_length, map_length, seq_length|]. split; [reflexivity|]. split; [reflexivity|]. split.
  - intros i Hi. now rewrite app_nth1.
  - intros i Hi. rewrite app_nth2 by lia. replace (length (r_pos r) + i - length (r_pos r)) with i by lia. rewrite nth_map_seq by exact Hi. unfold r_src. lia.
Qed.
Lemma extend_space_ok r sp : wf sp -> r_src r <= dim_all sp ->
  exists r', extend_space r sp = Some r' /\ spc (r_space r') (V (dl (r_space r) Param) (tup_in sp) (tup_out sp)) /\ r_src r' = dim_all sp /\ r_dst r' = r_dst r + (dim_all sp - r_src r) /\
  (forall i, i < r_src r -> nth i (r_pos r') 0 = nth i (r_pos r) 0) /\ (forall i, i < dim_all sp - r_src r -> nth (r_src r + i) (r_pos r') 0 = r_dst r + i).
Proof.
  intros W L. unfold extend_space. destruct (replace_params_ok sp (r_space r) W) as (s' & -> & W' & P & A & B). cbn [bind].
  destruct (extend_nth r (dim_all sp - r_src r)) as (E1 & E2 & _ & E3 & E4). eexists. split; [reflexivity|]. cbn [r_space r_dst r_pos].
  split; [split; [exact W'|]; unfold view_of; now rewrite P, A, B|]. unfold r_src in *. cbn [r_pos]. split; [lia|]. auto.
Qed.

(** ** the same with an environment *)
Definition vals (env : Z -> Z) (P : list (option Z)) : list Z := map (fun n => match n with Some n => env n | None => 0%Z end) P.
Lemma nth_vals env P i n : nth_error P i = Some (Some n) -> nth i (vals env P) 0%Z = env n.
Proof. revert i. induction P as [|[m|] P IH]; intros [|i] H; cbn in *; try discriminate; try (injection H as ->; reflexivity); auto. Qed.
Lemma agree_vals env P Q : agree P (vals env P) Q (vals env Q).
Proof. intros i j n H1 H2. now rewrite (nth_vals _ _ _ _ H1), (nth_vals _ _ _ _ H2). Qed.
Lemma bmap_align_env s b m : wf s -> wf m -> bm_ok s b -> named (dl s Param) -> named (dl m Param) -> NoDup (dl s Param) ->
  exists s' b', bmap_align_params (s, b) m = Ok (s', b') /\
    forall env x, length x = n_in s + n_out s -> (points b' (1%Z :: vals env (dl s' Param) ++ x) <-> points b (1%Z :: vals env (dl s Param) ++ x)).
Proof.
  intros Ws Wm OK Ns Nm D. destruct (bmap_align_ok s b m Ws Wm OK Ns Nm D) as (s' & b' & E & _ & _ & _ & Q). exists s', b'. split; [exact E|].
  intros env x Lx. apply Q; auto; try lia; try (unfold vals; rewrite map_length; apply dl_length). apply agree_vals.
Qed.
