(** The search of basic_map_collect_diff. *)
From Coq Require Import ZArith List Bool Arith Lia.
From Verif Require Import SeqSpec SeqModel MatModel SeqProofs BMapLists BMapModel BMapSpec BMapSem BMapGauss2 ReorderModel LocalModel LocalSpec LocalProofs BElimModel BElimSpec BElimProofs BElimVars BElimCols SimpModel SimpSpec SimpBase SimpFinal SetModel SetSpec SetBase SetLift SetOps SetViews SubModel SubSpec SubBase SubDivs.
Import ListNotations.
Open Scope Z_scope.

Lemma non_redundant_in : forall red i c, List.In c (non_redundant i red) <-> (i <= c < i + length red)%nat /\ nth (c - i) red false = false.
Proof.
  induction red as [|r red IH]; intros i c; cbn [non_redundant length]; [cbn; split; [tauto|intros [H _]; lia]|].
  assert (Q : (Datatypes.S i <= c)%nat -> nth (c - i) (r :: red) false = nth (c - Datatypes.S i) red false) by (intros H; replace (c - i)%nat with (Datatypes.S (c - Datatypes.S i)) by lia; reflexivity).
  destruct r.
  - rewrite IH. split; [intros [A B]; split; [lia|rewrite Q by lia; exact B]|]. intros [A B]. destruct (Nat.eq_dec c i) as [->|]; [rewrite Nat.sub_diag in B; discriminate|]. rewrite Q in B by lia. split; [lia|exact B].
  - cbn [List.In]. rewrite IH. split.
    + intros [<-|[A B]]; [split; [lia|rewrite Nat.sub_diag; reflexivity]|split; [lia|rewrite Q by lia; exact B]].
    + intros [A B]. destruct (Nat.eq_dec c i) as [->|]; [left; reflexivity|]. right. rewrite Q in B by lia. split; [lia|exact B].
Qed.
Lemma n_non_redundant_in red s t off c : (off <= length (b_ineq (fst t)))%nat ->
  (List.In c (n_non_redundant red s t off) <-> (off + c < length (b_ineq (fst t)))%nat /\ nth (off + c) (red s (fst t) off) false = false).
Proof.
  intros H. unfold n_non_redundant. rewrite non_redundant_in. set (m := (length (b_ineq (fst t)) - off)%nat). set (R := red s (fst t) off). rewrite Nat.sub_0_r. rewrite firstn_length, app_length, repeat_length.
  assert (N : (c < m)%nat -> nth c (firstn m (skipn off R ++ repeat false m)) false = nth (off + c) R false).
  { intros Hc. rewrite <- (firstn_skipn m (skipn off R ++ repeat false m)) at 2 || idtac. destruct (Nat.lt_ge_cases c (length (skipn off R))) as [L|L].
    - transitivity (nth c (skipn off R ++ repeat false m) false); [rewrite <- (firstn_skipn m (skipn off R ++ repeat false m)) at 2; rewrite app_nth1 by (rewrite firstn_length, app_length, repeat_length; lia); reflexivity|]. rewrite app_nth1 by exact L. apply nth_skipn.
    - transitivity (nth c (skipn off R ++ repeat false m) false); [rewrite <- (firstn_skipn m (skipn off R ++ repeat false m)) at 2; rewrite app_nth1 by (rewrite firstn_length, app_length, repeat_length; lia); reflexivity|]. rewrite app_nth2 by exact L. rewrite skipn_length in L. rewrite (nth_overflow R) by lia. rewrite skipn_length. generalize (c - (length R - off))%nat. induction m as [|m' IH']; intros k; [destruct k; reflexivity|]. clear. revert k. induction (Datatypes.S m') as [|q IHq]; intros k; [destruct k; reflexivity|destruct k; [reflexivity|apply IHq]]. }
  split; intros [A B].
  - split; [lia|]. rewrite <- N by lia. exact B.
  - split; [lia|]. rewrite N by lia. exact B.
Qed.
Lemma all_or_neg {A} (f : A -> Z) (l : list A) : Forall (fun c => 0 <= f c) l \/ exists j, (j < length l)%nat /\ forall d, f (nth j l d) < 0.
Proof.
  induction l as [|a l IH]; [left; constructor|]. destruct (Z_lt_ge_dec (f a) 0) as [H|H]; [right; exists 0%nat; split; [cbn; lia|intros; exact H]|]. destruct IH as [IH|(j & Hj & E)]; [left; constructor; [lia|exact IH]|right; exists (Datatypes.S j); split; [cbn; lia|exact E]].
Qed.

Section Search.
Variables (hash : row -> nat) (no_redundant : bmap -> bool) (tab : bmap -> bool * list kind) (fuel : nat) (no_sample : bmap -> bool).
Variables (emp : nat -> bmap -> bool) (red : nat -> bmap -> nat -> list bool) (kinds : nat -> bmap -> list kind).
Hypothesis TAB : sound_tab tab.
Hypothesis EMP : sound_emptiness emp.
Hypothesis RED : sound_redundancy red.
Hypothesis KIN : sound_kinds kinds.
Hypothesis NSM : forall b q, proper b -> length q = (1 + nvar b)%nat -> hd 0 q = 1 -> no_sample b = true -> ~ points b q.
Variables (np ni no : nat).
Notation nv := (np + ni + no)%nat.
Lemma is_empty_sound b q : okb np ni no b -> length q = (1 + nv)%nat -> hd 0 q = 1 -> bmap_is_empty no_sample b = true -> ~ points b q.
Proof.
  intros (P & Z) L H. unfold bmap_is_empty. destruct (b_empty b) eqn:E; [intros _ [F _]; congruence|]. destruct (plain_universe b); [discriminate|]. apply NSM; [exact P| |exact H]. rewrite (sized_nvar np ni no b Z). exact L.
Qed.
Lemma cur_points t x : table_ok np ni no t -> (cur nv t x <-> length x = (1 + nv)%nat /\ hd 0 x = 1 /\ points (fst t) x).
Proof.
  intros T. destruct (table_size np ni no t T) as (V & TT). destruct T as ((P & Z) & _ & E & _). split.
  - intros (w & (Lw & Hw & Sw) & <-). split; [rewrite firstn_length; lia|]. split; [destruct w; [discriminate Hw|exact Hw]|]. split; [exact E|]. exists (skipn (1 + nv) w). split; [rewrite skipn_length; lia|]. rewrite firstn_skipn. exact Sw.
  - intros (L & H & _ & e & Le & Se). exists (x ++ e). split; [split; [rewrite app_length; lia|]; split; [destruct x; [discriminate L|exact H]|exact Se]|]. rewrite firstn_app, L, Nat.sub_diag. cbn [firstn]. rewrite app_nil_r. rewrite <- L. apply firstn_all.
Qed.
Section One.
Variable p : bmap.
Hypothesis PP : proper p.
Hypothesis PZ : sized np ni no p.
Hypothesis PO : ordered p.
Hypothesis PK : LocalSpec.known (b_div p).
Definition val (dm : list nat) (c : nat) (w : list Z) : Z := dot (constraint_row p c false) (select nv dm w).
Lemma add_constraint_ok s t dm c o : table_ok np ni no t -> fits np ni no p dm t -> (c < length (rows p))%nat ->
  let t' := tab_add_constraint emp s t p dm c o in
  table_ok np ni no t' /\ fits np ni no p dm t' /\ forall w, solves (fst t') w <-> solves (fst t) w /\ (if o then val dm c w < 0 else 0 <= val dm c w).
Proof.
  intros T (F1 & F2 & F3) Hc. cbn zeta. destruct (table_size np ni no t T) as (V & TT). unfold tab_add_constraint. rewrite (sized_nvar np ni no p PZ). set (r := expand_constraint _ _ _ _).
  assert (LC : length (constraint_row p c o) = (1 + total p)%nat). { destruct o; [apply (oppose_length np ni no); assumption|]. rewrite (rows_nth_row np ni no) by exact Hc. pose proof (rows_len p PP) as R. rewrite Forall_forall in R. apply R. apply nth_In. exact Hc. }
  assert (LP : (1 + nv <= 1 + total p)%nat) by (unfold total; rewrite (sized_nvar np ni no p PZ); lia).
  assert (LR : length r = (1 + total (fst t))%nat) by (apply expand_length; lia).
  destruct (tab_add_ineq_ok emp EMP np ni no s t r T LR) as (T' & TT' & DD & SV). split; [exact T'|].
  assert (SV' : forall w, solves (fst (tab_add_ineq emp s t r)) w <-> solves (fst t) w /\ (if o then val dm c w < 0 else 0 <= val dm c w)).
  { intros w. rewrite SV. assert (Q : solves (fst t) w -> (nonneg_on w r <-> if o then val dm c w < 0 else 0 <= val dm c w)); [|tauto]. intros (Lw & Hw & _). unfold nonneg_on, r. rewrite expand_dot; [|lia|lia|lia|eapply Forall_impl; [|exact F2]; cbn beta; intros; lia].
    destruct o; [|reflexivity]. unfold val. rewrite (oppose_dot np ni no) by (first [assumption | destruct w; [discriminate Hw|exact Hw]]). lia. }
  split; [|exact SV']. split; [exact F1|]. split; [replace (ndiv (fst (tab_add_ineq emp s t r))) with (ndiv (fst t)) by (unfold ndiv; rewrite DD; reflexivity); exact F2|]. intros w Sw. apply F3. apply SV' in Sw. apply Sw.
Qed.
Lemma non_redundant_ok s t dm : table_ok np ni no t -> fits np ni no p dm t ->
  let t2 := tab_add_constraints emp s t p dm in
  let idx := n_non_redundant red s t2 (length (b_ineq (fst t))) in
  if snd t2 then forall w, solves (fst t) w -> ~ system (b_eq p) (b_ineq p) (select nv dm w)
  else Forall (fun c => (c < length (rows p))%nat) idx /\ (forall w, solves (fst t) w -> (system (b_eq p) (b_ineq p) (select nv dm w) <-> Forall (fun c => 0 <= val dm c w) idx)).
Proof.
  intros T (F1 & F2 & F3). cbn zeta. destruct (table_size np ni no t T) as (V & TT). destruct (add_constraints_adds emp np ni no p s PZ dm t) as (rs & E & I & C). set (E1 := fun r => expand_constraint (1 + total (fst t)) nv r dm) in *. pose proof (rows_len p PP) as RL. rewrite Forall_forall in RL.
  assert (LP : (1 + nv <= 1 + total p)%nat) by (unfold total; rewrite (sized_nvar np ni no p PZ); lia).
  destruct (adds_ok emp EMP np ni no s (map E1 rs) t T) as (T2 & TT2 & EQ2 & IN2 & SV). { rewrite Forall_map, Forall_forall. intros r Hr. apply expand_length; [rewrite (RL r (I r Hr)); lia|lia]. }
  rewrite <- E in *. set (t2 := tab_add_constraints emp s t p dm) in *.
  assert (NE : forall w r, length w = (1 + total (fst t))%nat -> List.In r (rows p) -> (nonneg_on w (E1 r) <-> nonneg_on (select nv dm w) r)). { intros w r Lw Hr. unfold nonneg_on, E1. rewrite expand_dot; [reflexivity|rewrite (RL r Hr); lia|lia|lia|eapply Forall_impl; [|exact F2]; cbn beta; intros; lia]. }
  destruct (snd t2) eqn:F.
  - intros w Sw Sy. destruct T2 as (_ & _ & _ & NO). apply (NO F w). apply SV. split; [exact Sw|]. rewrite Forall_map, Forall_forall. intros r Hr. apply NE; [apply Sw|apply I; exact Hr|]. apply (rows_system np ni no p) in Sy. rewrite Forall_forall in Sy. apply Sy. apply I. exact Hr.
  - specialize (C eq_refl). subst rs. set (n := length (b_ineq (fst t))) in *. assert (LI : length (b_ineq (fst t2)) = (n + length (rows p))%nat) by (rewrite IN2, app_length, map_length; reflexivity).
    assert (IX : forall c, List.In c (n_non_redundant red s t2 n) <-> (c < length (rows p))%nat /\ nth (n + c) (red s (fst t2) n) false = false) by (intros c; rewrite n_non_redundant_in by lia; rewrite LI; split; intros [A B]; (split; [lia|exact B])).
    split; [apply Forall_forall; intros c Hc; apply IX in Hc; apply Hc|]. intros w Sw. pose proof Sw as (Lw & Hw & Ew & Iw). rewrite (rows_system np ni no p). split.
    + intros R. apply Forall_forall. intros c Hc. apply IX in Hc as [Hc _]. unfold val. rewrite (rows_nth_row np ni no) by exact Hc. rewrite Forall_forall in R. apply R. apply nth_In. exact Hc.
    + intros R. assert (G : Forall (nonneg_on w) (b_ineq (fst t2))).
      { apply (RED s (fst t2) n w); [apply T2|apply T2|lia|exact Hw|rewrite EQ2; exact Ew|]. intros i Hi Q. rewrite IN2. rewrite LI in Hi. destruct (Nat.lt_ge_cases i n) as [L|L].
        - rewrite app_nth1 by exact L. rewrite Forall_forall in Iw. apply Iw. apply nth_In. exact L.
        - destruct Q as [Q|Q]; [lia|]. rewrite app_nth2 by exact L. fold n. assert (HC : (i - n < length (rows p))%nat) by lia. rewrite (nth_indep _ [] (E1 [])) by (rewrite map_length; exact HC). rewrite map_nth. apply NE; [exact Lw|apply nth_In; exact HC|]. rewrite Forall_forall in R. specialize (R (i - n)%nat). unfold val in R. rewrite (rows_nth_row np ni no) in R by exact HC. apply R. apply IX. split; [exact HC|]. replace (n + (i - n))%nat with i by lia. exact Q. }
      rewrite IN2 in G. apply Forall_app in G as [_ G]. rewrite Forall_map in G. rewrite Forall_forall in *. intros r Hr. apply NE; [exact Lw|exact Hr|]. apply G. exact Hr.
Qed.
End One.

(** ** the invariant *)
Variables (bm : bmap) (mp : list bmap) (once : bool).
Hypothesis BM : okb np ni no bm.
Hypothesis BMO : ordered bm.
Hypothesis BME : b_empty bm = false.
Hypothesis MP : Forall (fun p => okb np ni no p /\ ordered p /\ LocalSpec.known (b_div p)) mp.
Hypothesis ALIVE : Prop.
Hypothesis SMP : ALIVE -> forall b, okb np ni no b -> bmap_is_empty no_sample b = false -> exists q, length q = (1 + nv)%nat /\ hd 0 q = 1 /\ points b q.
Hypothesis BMA : ALIVE -> exists q, length q = (1 + nv)%nat /\ hd 0 q = 1 /\ points bm q.
Notation mapl l := (nth l mp bm).
Definition rest (l : nat) (x : list Z) : Prop := forall j, (l <= j < length mp)%nat -> ~ points (mapl j) x.
Definition val_at (p : bmap) (f : frame) (j : nat) (w : list Z) : Z := val p (f_map f) (nth j (f_index f) 0%nat) w.
Definition pend (frames : list frame) (i : nat) (x : list Z) : Prop :=
  let f := nth i frames (frame0 bm) in
  exists w, solves (fst (f_snap f)) w /\ firstn (1 + nv) w = x /\ 0 <= val_at (mapl i) f (f_k f) w /\ (exists j, (f_k f < j < f_n f)%nat /\ val_at (mapl i) f j w < 0) /\ rest (Datatypes.S i) x.
Definition frame_ok (i : nat) (f : frame) : Prop :=
  table_ok np ni no (f_snap f) /\ fits np ni no (mapl i) (f_map f) (f_snap f) /\
  (f_n f = 0%nat \/ (f_k f < f_n f)%nat /\ f_n f = length (f_index f) /\ Forall (fun c => (c < length (rows (mapl i)))%nat) (f_index f)).
Definition any (l : list bmap) (x : list Z) : Prop := exists b, List.In b l /\ points b x.
Definition piece_ok (b : bmap) : Prop := okb np ni no b /\ (ALIVE -> exists q, length q = (1 + nv)%nat /\ hd 0 q = 1 /\ points b q).
Definition wanted (x : list Z) : Prop := points bm x /\ rest 0 x.
Definition point (x : list Z) : Prop := length x = (1 + nv)%nat /\ hd 0 x = 1.
Definition top (st : search) : nat := if s_init st then s_level st else Datatypes.S (s_level st).
Definition start : table -> Prop := fun t => fst t = bm.
Definition inv (st : search) : Prop :=
  length (s_frames st) = length mp /\ (top st <= length mp)%nat /\
  (forall i, (i < top st)%nat -> frame_ok i (nth i (s_frames st) (frame0 bm))) /\
  (s_init st = true -> table_ok np ni no (s_tab st)) /\
  (s_modified st = false -> s_init st = true /\ s_out st = [] /\ fst (s_tab st) = bm /\ forall i, (i < s_level st)%nat -> f_n (nth i (s_frames st) (frame0 bm)) = 0%nat) /\
  Forall piece_ok (s_out st) /\ (once = true -> s_out st = []) /\
  (forall x, point x -> (wanted x <-> any (s_out st) x \/ (s_init st = true /\ cur nv (s_tab st) x /\ rest (s_level st) x) \/ exists i, (i < top st)%nat /\ pend (s_frames st) i x)).
Definition final (out : list bmap) : Prop :=
  Forall piece_ok out /\ (forall x, point x -> any out x -> wanted x) /\ (out = [] \/ once = false -> forall x, point x -> wanted x -> any out x).
Lemma rest_S l x : (l < length mp)%nat -> (rest l x <-> ~ points (mapl l) x /\ rest (Datatypes.S l) x).
Proof.
  intros H. unfold rest. split; [intros Q; split; [apply Q; lia|intros j Hj; apply Q; lia]|]. intros [A B] j Hj. destruct (Nat.eq_dec j l) as [->|]; [exact A|apply B; lia].
Qed.
Lemma mapl_ok i : (i < length mp)%nat -> proper (mapl i) /\ sized np ni no (mapl i) /\ ordered (mapl i) /\ LocalSpec.known (b_div (mapl i)).
Proof. intros H. pose proof MP as M. rewrite Forall_forall in M. destruct (M (mapl i) (nth_In _ _ H)) as ((P & Z) & O & K). auto. Qed.
(** no piece is left for a level *)
Lemma lower_ok st : inv st -> (forall x, point x -> s_init st = true -> cur nv (s_tab st) x -> rest (s_level st) x -> False) -> s_modified st = true ->
  (s_init st = false -> forall x, point x -> ~ pend (s_frames st) (s_level st) x) ->
  match lower st with Stop out => final out | Next st' => inv st' end.
Proof.
  intros (L & TP & FR & TB & MD & PO & ON & EQ) NC M NP. unfold lower. destruct st as [lv ini md tb frs out]. cbn [s_level s_init s_modified s_tab s_frames s_out] in *. destruct lv as [|lv].
  - assert (Q : forall x, point x -> (wanted x <-> any out x)).
    { intros x Hx. rewrite (EQ x Hx). split; [|tauto]. intros [A|[(A & B & C)|(i & Hi & P)]]; [exact A|destruct (NC x Hx A B C)|]. unfold top in Hi. cbn in Hi. destruct ini; [lia|]. replace i with 0%nat in P by lia. destruct (NP eq_refl x Hx P). }
    split; [exact PO|]. split; intros; apply Q; assumption.
  - split; [exact L|]. unfold top in *. cbn in *. split; [destruct ini; lia|]. split; [intros i Hi; apply FR; destruct ini; lia|]. split; [discriminate|]. split; [congruence|]. split; [exact PO|]. split; [exact ON|].
    intros x Hx. rewrite (EQ x Hx). split.
    + intros [A|[(A & B & C)|(i & Hi & P)]]; [left; exact A|destruct (NC x Hx A B C)|]. right. right. exists i. split; [|exact P]. destruct ini; [lia|]. destruct (Nat.eq_dec i (Datatypes.S lv)) as [->|]; [destruct (NP eq_refl x Hx P)|lia].
    + intros [A|[(A & _)|(i & Hi & P)]]; [left; exact A|discriminate A|]. right. right. exists i. split; [destruct ini; lia|exact P].
Qed.
Lemma at_leaf_ok s st t : inv st -> (length mp <= s_level st)%nat -> at_leaf hash no_redundant tab fuel no_sample kinds bm once s st = Ok t ->
  match t with Stop out => final out | Next st' => inv st' end.
Proof.
  intros IV LV. pose proof IV as (L & TP & FR & TB & MD & PO & ON & EQ). unfold at_leaf. assert (INI : s_init st = true) by (unfold top in TP; destruct (s_init st); [reflexivity|lia]). assert (LE : s_level st = length mp) by (unfold top in TP; rewrite INI in TP; lia).
  assert (RT : forall x, rest (s_level st) x) by (intros x j Hj; lia).
  destruct (s_modified st) eqn:M; cbn [negb].
  - specialize (TB INI). destruct (update_from_tab _ _ _) as [b1| | |] eqn:E1; cbn [bind]; try discriminate. destruct (simp_fin _ _ _ _ b1) as [b2| | |] eqn:E2; cbn [bind]; try discriminate.
    pose proof TB as ((P & Zs) & O & E & NF). assert (S1 : same (fst (s_tab st)) b1).
    { apply pres_same_points; [apply P|]. refine (proj1 (update_from_tab_pres _ _ _ _ (proper_good _ P E) E _ E1)). destruct (snd (s_tab st)) eqn:F; [|apply KIN; apply P]. intros v Lv Av Sv. destruct Av as [_ Av]. apply (NF eq_refl v). split; [exact Lv|]. split; [apply Av; apply P|exact Sv]. }
    pose proof (simp_fin_same hash no_redundant tab fuel TAB b1 b2 (proj1 (proj2 S1)) E2) as S2. pose proof (same_trans _ _ _ S1 S2) as S3.
    assert (OK : okb np ni no b2). { destruct S3 as ((A1 & A2 & A3 & _) & P2 & _). split; [exact P2|]. destruct Zs as (Z1 & Z2 & Z3). split; [congruence|]. split; congruence. }
    assert (PT : forall x, point x -> (points b2 x <-> cur nv (s_tab st) x)). { intros x (Lx & Hx). rewrite (cur_points _ _ TB). destruct S3 as (_ & _ & Q). rewrite <- Q; [tauto|rewrite (sized_nvar np ni no _ Zs); exact Lx|exact Hx]. }
    destruct (bmap_is_empty no_sample b2) eqn:EE.
    + intros [= <-]. apply lower_ok; [exact IV| |exact M|congruence]. intros x Hx _ C _. apply (PT x Hx) in C. apply (is_empty_sound b2 x OK (proj1 Hx) (proj2 Hx) EE C).
    + set (st1 := mks _ _ _ _ _ _). assert (PK : piece_ok b2) by (split; [exact OK|intros AL; apply SMP; assumption]).
      assert (W1 : forall x, point x -> points b2 x -> wanted x) by (intros x Hx Q; apply (EQ x Hx); right; left; split; [exact INI|]; split; [apply PT; assumption|apply RT]).
      assert (P1 : Forall piece_ok (s_out st ++ [b2])) by (apply Forall_app; split; [exact PO|constructor; [exact PK|constructor]]).
      destruct once eqn:EO.
      * intros [= <-]. rewrite (ON eq_refl) in *. cbn [app] in *. split; [exact P1|]. split; [|intros [F|F]; congruence]. intros x Hx (b & [<-|[]] & Hb). apply W1; assumption.
      * intros [= <-].
        (* the piece at this leaf is in the output now *)
        assert (Q : forall x, point x -> (wanted x <-> any (s_out st ++ [b2]) x \/ exists i, (i < s_level st)%nat /\ pend (s_frames st) i x)).
        { intros x Hx. rewrite (EQ x Hx). unfold top. rewrite INI. split.
          - intros [(b & A & B)|[(_ & B & _)|P']]; [left; exists b; split; [apply in_or_app; left; exact A|exact B]| |right; exact P']. left. exists b2. split; [apply in_or_app; right; left; reflexivity|apply PT; assumption].
          - intros [(b & A & B)|P']; [|right; right; exact P']. apply in_app_or in A as [A|[<-|[]]]; [left; exists b; auto|]. right. left. split; [reflexivity|]. split; [apply PT; assumption|apply RT]. }
        unfold lower. cbn [st1 s_level s_init s_modified s_tab s_frames s_out]. destruct (s_level st) as [|lv] eqn:LV'.
        -- split; [exact P1|]. split; [intros x Hx A; apply (Q x Hx); left; exact A|]. intros _ x Hx W. apply (Q x Hx) in W as [A|(i & Hi & _)]; [exact A|lia].
        -- split; [exact L|]. unfold top in *. rewrite INI, LV' in *. cbn. split; [lia|]. split; [exact FR|]. split; [discriminate|]. split; [congruence|]. split; [exact P1|]. split; [intros F; congruence|]. intros x Hx. rewrite (Q x Hx). split; [tauto|]. intros [A|[(A & _)|A]]; [tauto|discriminate A|tauto].
  - intros [= <-]. destruct (MD eq_refl) as (_ & O0 & TF & N0). rewrite O0. cbn [app]. assert (Q : forall x, point x -> (wanted x <-> any [bm] x)).
    { intros x Hx. rewrite (EQ x Hx), O0. split.
      - intros [(b & [] & _)|[(_ & C & _)|(i & Hi & w & _ & _ & _ & (j & Hj & _) & _)]]; [|rewrite N0 in Hj by (unfold top in Hi; rewrite INI in Hi; exact Hi); lia]. apply (cur_points _ _ (TB INI)) in C as (_ & _ & C). rewrite TF in C. exists bm. split; [left; reflexivity|exact C].
      - intros (b & [<-|[]] & B). right. left. split; [exact INI|]. split; [|apply RT]. apply (cur_points _ _ (TB INI)). rewrite TF. destruct Hx. auto. }
    split; [constructor; [split; [exact BM|exact BMA]|constructor]|]. split; intros; apply Q; assumption.
Qed.
Lemma nth_lset_same {A} (l : list A) i a d : (i < length l)%nat -> nth i (lset l i a) d = a.
Proof. revert i. induction l as [|x l IH]; intros i H; [cbn in H; lia|]. destruct i; [reflexivity|]. cbn in *. apply IH. lia. Qed.
Lemma nth_lset_other {A} (l : list A) i k a d : k <> i -> nth k (lset l i a) d = nth k l d.
Proof. revert i k. induction l as [|x l IH]; intros i k H; [destruct i; reflexivity|]. destruct i, k; cbn; try reflexivity; try lia. apply IH. lia. Qed.
Lemma len_lset {A} (l : list A) i a : length (lset l i a) = length l.
Proof. revert i. induction l as [|x l IH]; intros i; [destruct i; reflexivity|]. destruct i; cbn; [reflexivity|]. rewrite IH. reflexivity. Qed.
Lemma pend_lset frs l f i x : i <> l -> (pend (lset frs l f) i x <-> pend frs i x).
Proof. intros H. unfold pend. rewrite nth_lset_other by exact H. reflexivity. Qed.
Lemma at_init_ok s st : inv st -> (s_level st < length mp)%nat -> s_init st = true ->
  match at_init emp red bm mp s st with Stop out => final out | Next st' => inv st' end.
Proof.
  intros IV LV INI. pose proof IV as (L & TP & FR & TB & MD & PO & ON & EQ). specialize (TB INI). unfold at_init. set (l := s_level st) in *. destruct (mapl_ok l LV) as (PP & PZ & PRD & PK). set (p := mapl l) in *.
  destruct (add_divs_ok emp EMP np ni no p s PP PZ PRD PK (s_tab st) TB) as (T1 & C1 & F1). destruct (tab_add_divs emp s (s_tab st) p) as [t1 dm]. cbn [fst snd] in T1, C1, F1. cbv zeta.
  pose proof (non_redundant_ok p PP PZ s t1 dm T1 F1) as NR. cbv zeta in NR. set (t2 := tab_add_constraints emp s t1 p dm) in *. set (idx := n_non_redundant red s t2 (length (b_ineq (fst t1)))) in *.
  assert (TPE : top st = l) by (unfold top; rewrite INI; reflexivity).
  assert (MS : forall w, solves (fst t1) w -> (points p (firstn (1 + nv) w) <-> system (b_eq p) (b_ineq p) (select nv dm w))) by (intros w Sw; apply (member_select np ni no p PP PZ PRD PK t1 dm w T1 F1 Sw)).
  destruct (snd t2).
  - (* the basic map does not intersect this piece *)
    assert (D : forall x, cur nv (s_tab st) x -> ~ points p x). { intros x C Px. apply C1 in C as (w & Sw & <-). apply MS in Px; [|exact Sw]. exact (NR w Sw Px). }
    split; [cbn; rewrite len_lset; exact L|]. unfold top. cbn. split; [lia|]. split.
    { intros i Hi. destruct (Nat.eq_dec i l) as [->|NE]; [|rewrite nth_lset_other by exact NE; apply FR; rewrite TPE; lia]. rewrite nth_lset_same by lia. split; [exact T1|]. split; [exact F1|left; reflexivity]. }
    split; [intros _; exact TB|]. split. { intros M. destruct (MD M) as (_ & O0 & TF & N0). split; [reflexivity|]. split; [exact O0|]. split; [exact TF|]. intros i Hi. destruct (Nat.eq_dec i l) as [->|NE]; [rewrite nth_lset_same by lia; reflexivity|rewrite nth_lset_other by exact NE; apply N0; lia]. }
    split; [exact PO|]. split; [exact ON|]. intros x Hx. rewrite (EQ x Hx). rewrite TPE, INI. rewrite (rest_S l x LV). fold p. split.
    + intros [A|[(_ & B & C)|(i & Hi & P)]]; [left; exact A|right; left; tauto|]. right. right. exists i. split; [lia|]. apply pend_lset; [lia|exact P].
    + intros [A|[(_ & B & C)|(i & Hi & P)]]; [left; exact A|right; left; split; [reflexivity|]; split; [exact B|]; split; [apply D; exact B|exact C]|]. destruct (Nat.eq_dec i l) as [->|NE].
      * unfold pend in P. rewrite nth_lset_same in P by lia. cbn in P. destruct P as (w & _ & _ & _ & (j & Hj & _) & _). lia.
      * right. right. exists i. split; [lia|]. apply pend_lset in P; assumption.
  - destruct NR as (NR1 & NR2).
    assert (MI : forall w, solves (fst t1) w -> (points p (firstn (1 + nv) w) <-> Forall (fun c => 0 <= val p dm c w) idx)) by (intros w Sw; rewrite (MS w Sw); apply NR2; exact Sw).
    destruct idx as [|c idx'] eqn:EI.
    + (* the piece is covered by the basic map *)
      apply lower_ok; [|cbn|reflexivity|cbn; congruence].
      * split; [cbn; rewrite len_lset; exact L|]. unfold top. cbn. split; [lia|]. split; [intros i Hi; rewrite nth_lset_other by lia; apply FR; rewrite TPE; exact Hi|].
        assert (T2 : table_ok np ni no t2). { destruct (add_constraints_adds emp np ni no p s PZ dm t1) as (rs & E & I & _). unfold t2. rewrite E. apply (adds_ok emp EMP np ni no s _ t1 T1). rewrite Forall_map, Forall_forall. intros r Hr. pose proof (rows_len p PP) as RL. rewrite Forall_forall in RL. destruct (table_size np ni no t1 T1) as (_ & TT). apply expand_length; [rewrite (RL r (I r Hr)); unfold total; rewrite (sized_nvar np ni no p PZ); lia|lia]. }
        assert (NO : forall x, point x -> ~ (cur nv (s_tab st) x /\ rest l x)). { intros x Hx (C & R). apply C1 in C as (w & Sw & <-). apply (rest_S l _ LV) in R as [R _]. apply R. apply MI; [exact Sw|constructor]. }
        assert (NO2 : forall x, point x -> ~ (cur nv t2 x /\ rest l x)). { intros x Hx (C & R). apply (NO x Hx). split; [|exact R]. apply C1. destruct C as (w & Sw & E). exists w. split; [|exact E]. destruct (add_constraints_adds emp np ni no p s PZ dm t1) as (rs & Es & I & _). unfold t2 in Sw. rewrite Es in Sw. apply (adds_ok emp EMP np ni no s _ t1 T1) in Sw; [apply Sw|]. rewrite Forall_map, Forall_forall. intros r Hr. pose proof (rows_len p PP) as RL. rewrite Forall_forall in RL. destruct (table_size np ni no t1 T1) as (_ & TT). apply expand_length; [rewrite (RL r (I r Hr)); unfold total; rewrite (sized_nvar np ni no p PZ); lia|lia]. }
        split; [intros _; exact T2|]. split; [discriminate|]. split; [exact PO|]. split; [exact ON|]. intros x Hx. rewrite (EQ x Hx), TPE, INI. split.
        -- intros [A|[(_ & B)|(i & Hi & P)]]; [left; exact A|destruct (NO x Hx B)|]. right. right. exists i. split; [exact Hi|]. apply pend_lset; [lia|exact P].
        -- intros [A|[(_ & B)|(i & Hi & P)]]; [left; exact A|destruct (NO2 x Hx B)|]. right. right. exists i. split; [exact Hi|]. apply pend_lset in P; [exact P|lia].
      * intros x Hx _ C R. destruct C as (w & Sw & E). destruct (add_constraints_adds emp np ni no p s PZ dm t1) as (rs & Es & I & _). unfold t2 in Sw. rewrite Es in Sw. apply (adds_ok emp EMP np ni no s _ t1 T1) in Sw as [Sw _].
        -- apply (rest_S l _ LV) in R as [R _]. apply R. fold p. rewrite <- E. apply MI; [exact Sw|constructor].
        -- rewrite Forall_map, Forall_forall. intros r Hr. pose proof (rows_len p PP) as RL. rewrite Forall_forall in RL. destruct (table_size np ni no t1 T1) as (_ & TT). apply expand_length; [rewrite (RL r (I r Hr)); unfold total; rewrite (sized_nvar np ni no p PZ); lia|lia].
    + assert (HC : (c < length (rows p))%nat) by (inversion NR1; assumption). destruct (add_constraint_ok p PP PZ s t1 dm c true T1 F1 HC) as (T3 & F3 & SV). set (t3 := tab_add_constraint emp s t1 p dm c true) in *.
      split; [cbn; rewrite len_lset; exact L|]. unfold top. cbn [s_init s_level s_frames s_tab s_out s_modified]. split; [lia|]. split.
      { intros i Hi. destruct (Nat.eq_dec i l) as [->|NE]; [|rewrite nth_lset_other by exact NE; apply FR; rewrite TPE; lia]. rewrite nth_lset_same by lia. split; [exact T1|]. split; [exact F1|]. right. cbn [f_k f_n f_index]. split; [cbn; lia|]. split; [reflexivity|exact NR1]. }
      split; [intros _; exact T3|]. split; [discriminate|]. split; [exact PO|]. split; [exact ON|]. intros x Hx. rewrite (EQ x Hx), TPE, INI. rewrite (rest_S l x LV). fold p.
      assert (PL : pend (lset (s_frames st) l (mkf t1 0 (length (c :: idx')) (c :: idx') dm)) l x <-> exists w, solves (fst t1) w /\ firstn (1 + nv) w = x /\ 0 <= val p dm c w /\ (exists j, (0 < j < length (c :: idx'))%nat /\ val p dm (nth j (c :: idx') 0%nat) w < 0) /\ rest (Datatypes.S l) x).
      { unfold pend. rewrite nth_lset_same by lia. cbv zeta. unfold val_at. cbn [f_snap f_k f_n f_index f_map]. fold p. reflexivity. }
      split.
      * intros [A|[(_ & B & C & D)|(i & Hi & P)]]; [left; exact A| |right; right; exists i; split; [lia|]; apply pend_lset; [lia|exact P]]. apply C1 in B as (w & Sw & Ex). right. destruct (Z_lt_ge_dec (val p dm c w) 0) as [N|N].
        -- left. split; [reflexivity|]. split; [|exact D]. exists w. split; [apply SV; split; assumption|exact Ex].
        -- right. exists l. split; [lia|]. apply PL. exists w. split; [exact Sw|]. split; [exact Ex|]. split; [lia|]. split; [|exact D]. destruct (all_or_neg (fun c => val p dm c w) (c :: idx')) as [G|(j & Hj & G)].
           ++ exfalso. apply C. rewrite <- Ex. apply MI; [exact Sw|exact G].
           ++ exists j. split; [|apply G]. split; [|exact Hj]. destruct j; [specialize (G 0%nat); cbn in G; lia|lia].
      * assert (BACK : forall w, solves (fst t1) w -> firstn (1 + nv) w = x -> forall j, (j < length (c :: idx'))%nat -> val p dm (nth j (c :: idx') 0%nat) w < 0 -> rest (Datatypes.S l) x -> true = true /\ cur nv (s_tab st) x /\ ~ points p x /\ rest (Datatypes.S l) x).
        { intros w Sw Ex j Hj N D. split; [reflexivity|]. split; [apply C1; exists w; auto|]. split; [|exact D]. intros Px. rewrite <- Ex in Px. apply MI in Px; [|exact Sw]. rewrite Forall_forall in Px. specialize (Px _ (nth_In _ 0%nat Hj)). cbv beta in Px. lia. }
        intros [A|[(_ & B & D)|(i & Hi & P)]]; [left; exact A| |].
        -- right. left. destruct B as (w & Sw & Ex). apply SV in Sw as (Sw & N). apply (BACK w Sw Ex 0%nat); [cbn; lia|exact N|exact D].
        -- destruct (Nat.eq_dec i l) as [->|NE]; [|right; right; exists i; split; [lia|]; apply pend_lset in P; assumption]. apply PL in P as (w & Sw & Ex & _ & (j & Hj & N) & D). right. left. apply (BACK w Sw Ex j); [lia|exact N|exact D].
Qed.
Lemma at_next_ok s st : inv st -> (s_level st < length mp)%nat -> s_init st = false ->
  match at_next emp bm mp s st with Stop out => final out | Next st' => inv st' end.
Proof.
  intros IV LV INI. pose proof IV as (L & TP & FR & TB & MD & PO & ON & EQ). assert (MT : s_modified st = true) by (destruct (s_modified st); [reflexivity|destruct (MD eq_refl); congruence]). unfold at_next. set (l := s_level st) in *. destruct (mapl_ok l LV) as (PP & PZ & PRD & PK). set (p := mapl l) in *. set (f := nth l (s_frames st) (frame0 bm)). cbv zeta.
  assert (TPE : top st = Datatypes.S l) by (unfold top; rewrite INI; reflexivity). pose proof (FR l ltac:(lia)) as (TF & FF & NF). fold f in TF, FF, NF. fold p in FF, NF.
  destruct (Nat.leb_spec (f_n f) (f_k f + 1)) as [LE|GT].
  - apply lower_ok; [exact IV|congruence|exact MT|]. intros _ x Hx (w & _ & _ & _ & (j & Hj & _) & _). fold l in Hj. fold f in Hj. lia.
  - destruct NF as [NF|(K1 & K2 & K3)]; [lia|]. rewrite Forall_forall in K3. assert (HK : forall k, (k < f_n f)%nat -> (nth k (f_index f) 0 < length (rows p))%nat) by (intros k Hk; apply K3; apply nth_In; lia).
    destruct (add_constraint_ok p PP PZ s (f_snap f) (f_map f) (nth (f_k f) (f_index f) 0%nat) false TF FF (HK _ K1)) as (T1 & F1 & SV1). set (t1 := tab_add_constraint emp s (f_snap f) p (f_map f) (nth (f_k f) (f_index f) 0%nat) false) in *.
    assert (HK2 : (Datatypes.S (f_k f) < f_n f)%nat) by lia.
    destruct (add_constraint_ok p PP PZ s t1 (f_map f) (nth (Datatypes.S (f_k f)) (f_index f) 0%nat) true T1 F1 (HK _ HK2)) as (T2 & F2 & SV2). set (t2 := tab_add_constraint emp s t1 p (f_map f) (nth (Datatypes.S (f_k f)) (f_index f) 0%nat) true) in *.
    split; [cbn; rewrite len_lset; exact L|]. unfold top. cbn [s_init s_level s_frames s_tab s_out s_modified]. split; [lia|]. split.
    { intros i Hi. destruct (Nat.eq_dec i l) as [->|NE]; [|rewrite nth_lset_other by exact NE; apply FR; rewrite TPE; lia]. rewrite nth_lset_same by lia. split; [exact T1|]. split; [exact F1|]. right. cbn [f_k f_n f_index]. split; [lia|]. split; [exact K2|apply Forall_forall; exact K3]. }
    split; [intros _; exact T2|]. split; [congruence|]. split; [exact PO|]. split; [exact ON|]. intros x Hx. rewrite (EQ x Hx), TPE, INI.
    assert (PL : pend (lset (s_frames st) l (mkf t1 (Datatypes.S (f_k f)) (f_n f) (f_index f) (f_map f))) l x <-> exists w, solves (fst t1) w /\ firstn (1 + nv) w = x /\ 0 <= val p (f_map f) (nth (Datatypes.S (f_k f)) (f_index f) 0%nat) w /\ (exists j, (Datatypes.S (f_k f) < j < f_n f)%nat /\ val p (f_map f) (nth j (f_index f) 0%nat) w < 0) /\ rest (Datatypes.S l) x).
    { unfold pend. rewrite nth_lset_same by lia. cbv zeta. unfold val_at. cbn [f_snap f_k f_n f_index f_map]. fold p. reflexivity. }
    assert (PL0 : pend (s_frames st) l x <-> exists w, solves (fst (f_snap f)) w /\ firstn (1 + nv) w = x /\ 0 <= val p (f_map f) (nth (f_k f) (f_index f) 0%nat) w /\ (exists j, (f_k f < j < f_n f)%nat /\ val p (f_map f) (nth j (f_index f) 0%nat) w < 0) /\ rest (Datatypes.S l) x) by reflexivity.
    split.
    + intros [A|[(A & _)|(i & Hi & P)]]; [left; exact A|discriminate A|]. right. destruct (Nat.eq_dec i l) as [->|NE]; [|right; exists i; split; [lia|]; apply pend_lset; assumption]. apply PL0 in P as (w & Sw & Ex & N0 & (j & Hj & N1) & D).
      assert (S1 : solves (fst t1) w) by (apply SV1; split; assumption). destruct (Z_lt_ge_dec (val p (f_map f) (nth (Datatypes.S (f_k f)) (f_index f) 0%nat) w) 0) as [N|N].
      * left. split; [reflexivity|]. split; [|exact D]. exists w. split; [apply SV2; split; assumption|exact Ex].
      * right. exists l. split; [lia|]. apply PL. exists w. split; [exact S1|]. split; [exact Ex|]. split; [lia|]. split; [|exact D]. exists j. split; [|exact N1]. destruct (Nat.eq_dec j (Datatypes.S (f_k f))) as [Ej|Nj]; [exfalso; rewrite Ej in N1; clear - N N1; apply N; exact N1|fold f in Hj; lia].
    + intros [A|[(_ & B & D)|(i & Hi & P)]]; [left; exact A| |].
      * right. right. exists l. split; [lia|]. apply PL0. destruct B as (w & Sw & Ex). apply SV2 in Sw as (Sw & N). apply SV1 in Sw as (Sw & N0). exists w. split; [exact Sw|]. split; [exact Ex|]. split; [exact N0|]. split; [|exact D]. exists (Datatypes.S (f_k f)). split; [lia|exact N].
      * destruct (Nat.eq_dec i l) as [->|NE]; [|right; right; exists i; split; [lia|]; apply pend_lset in P; assumption]. apply PL in P as (w & Sw & Ex & N1 & (j & Hj & N) & D). apply SV1 in Sw as (Sw & N0). right. right. exists l. split; [lia|]. apply PL0. exists w. split; [exact Sw|]. split; [exact Ex|]. split; [exact N0|]. split; [|exact D]. exists j. split; [lia|exact N].
Qed.
Lemma search_loop_ok : forall steps st out, inv st -> search_loop hash no_redundant tab fuel no_sample emp red kinds bm mp once steps st = Ok out -> final out.
Proof.
  induction steps as [|steps IH]; intros st out IV; cbn [search_loop]; [discriminate|]. destruct (Nat.leb_spec (length mp) (s_level st)) as [LV|LV].
  - destruct (at_leaf _ _ _ _ _ _ _ _ _ st) as [t| | |] eqn:E; cbn [bind]; try discriminate. pose proof (at_leaf_ok _ st t IV LV E) as H. destruct t as [st'|o]; [apply IH; exact H|intros [= <-]; exact H].
  - destruct (s_init st) eqn:INI; cbn [bind].
    + pose proof (at_init_ok (Datatypes.S steps) st IV LV INI) as H. destruct (at_init _ _ _ _ _ st) as [st'|o]; [apply IH; exact H|intros [= <-]; exact H].
    + pose proof (at_next_ok (Datatypes.S steps) st IV LV INI) as H. destruct (at_next _ _ _ _ st) as [st'|o]; [apply IH; exact H|intros [= <-]; exact H].
Qed.
Lemma start_inv s : inv (mks 0 true false (bm, emp s bm) (repeat (frame0 bm) (length mp)) []).
Proof.
  pose proof BM as (P & Z). split; [apply repeat_length|]. unfold top. cbn. split; [lia|]. split; [intros i Hi; lia|]. assert (T : table_ok np ni no (bm, emp s bm)). { split; [exact BM|]. split; [exact BMO|]. split; [exact BME|]. cbn [fst snd]. apply EMP; apply P. }
  split; [intros _; exact T|]. split; [intros _; repeat split; auto; intros i Hi; lia|]. split; [constructor|]. split; [reflexivity|]. intros x (Lx & Hx). unfold wanted. rewrite (cur_points _ x T). cbn [fst]. split; [intros [A B]; right; left; auto|]. intros [(b & [] & _)|[(_ & (_ & _ & A) & B)|(i & Hi & _)]]; [auto|lia].
Qed.
End Search.
