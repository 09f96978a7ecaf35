(** Extending points with the values of integer divisions, merging lists of integer divisions. *)
From Coq Require Import ZArith List Bool Arith Lia ZifyBool.
From Verif Require Import SeqModel SeqSpec SeqProofs MatModel LocalModel LocalSpec PolySpec BMapLists.
Import ListNotations.
Open Scope Z_scope.

Lemma firstn_S {A} (l : list A) d : forall m, (m < length l)%nat -> firstn (S m) l = firstn m l ++ [nth m l d].
Proof. induction l as [|a t IH]; intros m H; cbn in H; [lia|]. destruct m; [reflexivity|]. cbn [firstn nth app]. f_equal. apply IH. lia. Qed.
Lemma nth_firstn {A} (l : list A) d : forall k i, nth i (firstn k l) d = if Nat.ltb i k then nth i l d else d.
Proof.
  induction l as [|a t IH]; intros k i; [rewrite firstn_nil; destruct i, (Nat.ltb _ _); reflexivity|]. destruct k; [destruct i; reflexivity|]. destruct i; [reflexivity|]. cbn [firstn nth].
  rewrite IH. reflexivity.
Qed.
Lemma dot_zeros l : forall w, (forall j, nth j l 0 = 0) -> dot l w = 0.
Proof. induction l as [|a t IH]; intros w H; [reflexivity|]. destruct w; [apply dot_nil_r|]. cbn [dot]. pose proof (H 0%nat) as E. cbn in E. subst a. rewrite IH; [lia|]. intros j. apply (H (S j)). Qed.
Lemma dot_prefix l : forall k w, (forall j, (k <= j)%nat -> nth j l 0 = 0) -> dot l w = dot (firstn k l) (firstn k w).
Proof.
  induction l as [|a t IH]; intros k w H; [rewrite firstn_nil; reflexivity|]. destruct w as [|b u]; [rewrite firstn_nil, !dot_nil_r; reflexivity|]. destruct k.
  - cbn [firstn]. apply (dot_zeros (a :: t)). intros j. apply H. lia.
  - cbn [firstn dot]. f_equal. apply IH. intros j Hj. apply (H (S j)). lia.
Qed.
Lemma list_eq_nth (l m : list Z) : length l = length m -> (forall i, (i < length l)%nat -> nth i l 0 = nth i m 0) -> l = m.
Proof. intros L H. apply (nth_ext l m 0 0 L H). Qed.

(** ** extending a point *)
Lemma extend_loop_ok d : forall Mr M0 v, wf_divs d (M0 ++ Mr) -> known (M0 ++ Mr) -> length v = (1 + d + length M0)%nat ->
  length (extend_loop Mr v) = (1 + d + length (M0 ++ Mr))%nat /\ firstn (length v) (extend_loop Mr v) = v /\
  forall i, (length M0 <= i)%nat -> (i < length (M0 ++ Mr))%nat ->
    nth (1 + d + i) (extend_loop Mr v) 0 = dot (skipn 1 (nth i (M0 ++ Mr) [])) (extend_loop Mr v) / nth 0 (nth i (M0 ++ Mr) []) 0.
Proof.
  induction Mr as [|r Mr IH]; intros M0 v W K L.
  - cbn [extend_loop]. rewrite app_nil_r in *. split; [exact L|]. split; [apply firstn_all|]. intros i H1 H2. lia.
  - cbn [extend_loop]. set (x := fdiv_q _ _). assert (E : M0 ++ r :: Mr = (M0 ++ [r]) ++ Mr) by (rewrite <- app_assoc; reflexivity). rewrite E in *.
    destruct (IH (M0 ++ [r]) (v ++ [x]) W K) as (A & B & C). { rewrite !app_length. cbn. lia. }
    set (w := extend_loop Mr (v ++ [x])) in *. split; [exact A|].
    assert (B' : firstn (length v) w = v). { rewrite <- (firstn_app_2 0 v w) at 1 || idtac. rewrite app_length in B. cbn in B. replace (length v) with (Nat.min (length v) (length v + 1)) by lia. rewrite <- firstn_firstn, B. rewrite firstn_app, Nat.sub_diag, firstn_all, app_nil_r. reflexivity. }
    split; [exact B'|]. intros i H1 H2. destruct (Nat.eq_dec i (length M0)) as [->|N]; [|apply C; [rewrite app_length; cbn; lia|exact H2]].
    replace (1 + d + length M0)%nat with (length v) by lia.
    assert (X : nth (length v) w 0 = x). { transitivity (nth (length v) (firstn (length (v ++ [x])) w) 0); [rewrite nth_firstn, app_length; cbn [length]; destruct (Nat.ltb_spec (length v) (length v + 1)); [reflexivity|lia]|]. rewrite B, app_nth2, Nat.sub_diag by lia. reflexivity. }
    rewrite X. unfold x, fdiv_q. rewrite inner_ok. assert (Er : nth (length M0) ((M0 ++ [r]) ++ Mr) [] = r). { rewrite <- app_assoc. rewrite app_nth2, Nat.sub_diag by lia. reflexivity. }
    rewrite Er. f_equal. symmetry. rewrite (dot_prefix _ (length v)); [rewrite B'; reflexivity|]. intros j Hj. rewrite nth_skipn.
    destruct (W (length M0)) as (_ & _ & Z0); [rewrite !app_length; cbn; lia|]. rewrite Er in Z0. apply Z0. lia.
Qed.
Lemma extend_sat d M v : wf_divs d M -> known M -> length v = (1 + d)%nat -> nth 0 v 0 = 1 -> sat d M (extend_loop M v) /\ firstn (1 + d) (extend_loop M v) = v.
Proof.
  intros W K L E. destruct (extend_loop_ok d M [] v W K) as (A & B & C); [cbn; lia|]. cbn [app] in *. rewrite L in B. split; [|exact B]. split; [exact A|]. split.
  - rewrite <- E. rewrite <- B at 2. rewrite nth_firstn. reflexivity.
  - intros i Hi _. apply C; [cbn; lia|exact Hi].
Qed.
Lemma sat_unique d M w w' : wf_divs d M -> known M -> sat d M w -> sat d M w' -> firstn (1 + d) w = firstn (1 + d) w' -> w = w'.
Proof.
  intros W K (L & _ & H) (L' & _ & H') E.
  assert (P : forall k, (k <= length M)%nat -> firstn (1 + d + k) w = firstn (1 + d + k) w').
  { induction k as [|k IH]; intros Hk; [rewrite Nat.add_0_r; exact E|]. specialize (IH ltac:(lia)). rewrite Nat.add_succ_r. rewrite !(firstn_S _ 0) by lia. f_equal; [exact IH|]. f_equal.
    rewrite (H k), (H' k) by (try lia; apply K; lia). f_equal. destruct (W k ltac:(lia)) as (_ & _ & Z0).
    assert (Zs : forall j, (1 + d + k <= j)%nat -> nth j (skipn 1 (nth k M [])) 0 = 0) by (intros j Hj; rewrite nth_skipn; apply Z0; lia).
    rewrite (dot_prefix _ (1 + d + k) w Zs), (dot_prefix _ (1 + d + k) w' Zs), IH. reflexivity. }
  specialize (P (length M) (le_n _)). rewrite !firstn_all2 in P by lia. exact P.
Qed.
Lemma extend_point_ok d M v : wf_divs d M -> known M -> length v = (1 + d)%nat -> nth 0 v 0 = 1 -> exists w, extend_point d M v = Ok w /\ sat d M w /\ firstn (1 + d) w = v.
Proof.
  intros W K L E. exists (extend_loop M v). split; [|apply extend_sat; assumption]. unfold extend_point.
  assert (Kn : divs_known M = true). { unfold divs_known. apply forallb_forall. intros r Hr. apply (In_nth _ _ []) in Hr as (i & Hi & <-). specialize (K i Hi). lia. }
  rewrite Kn. cbn [negb]. rewrite L, Nat.eqb_refl. cbn [negb]. destruct M; [reflexivity|]. rewrite E. reflexivity.
Qed.

(** ** expanding rows *)
Lemma nth_zupd l : forall i a j, nth j (zupd l i a) 0 = if Nat.eqb j i && Nat.ltb i (length l) then a else nth j l 0.
Proof.
  induction l as [|b t IH]; intros i a j; [destruct i, j; cbn; rewrite ?andb_false_r; reflexivity|]. destruct i, j; cbn [zupd nth length]; try reflexivity. rewrite IH. reflexivity.
Qed.
Lemma skipn_zupd l a i : skipn 1 (zupd l (S i) a) = zupd (skipn 1 l) i a.
Proof. destruct l; [destruct i|]; reflexivity. Qed.
Lemma expand_loop_ok w c row exp : (0 < c)%nat -> (c <= length row)%nat -> (c <= w)%nat -> increasing exp -> (forall i, (i < length exp)%nat -> (c + nth i exp 0 < w)%nat) ->
  forall m, (m <= length exp)%nat -> (c + m <= length row)%nat ->
  let f := fold_left (fun r i => zupd r (c + nth i exp 0%nat) (nth (c + i) row 0)) (seq 0 m) (firstn c row ++ repeat 0 (w - c)) in
  length f = w /\ (forall p, (p < c)%nat -> nth p f 0 = nth p row 0) /\
  (forall p, (c <= p)%nat -> (forall i, (i < m)%nat -> p <> (c + nth i exp 0)%nat) -> nth p f 0 = 0) /\
  forall u, dot (skipn 1 f) u = dot (skipn 1 (firstn c row)) u + dot (firstn m (skipn c row)) (map (fun k => nth (c - 1 + k) u 0) (firstn m exp)).
Proof.
  intros Hc Hr Hw I B. induction m as [|m IH]; intros Hm Hrow.
  - cbn [seq fold_left firstn map dot]. assert (Lf : length (firstn c row) = c) by (apply firstn_length_le; exact Hr).
    split; [rewrite app_length, repeat_length, Lf; lia|]. split; [|split].
    + intros p Hp. rewrite app_nth1 by lia. rewrite nth_firstn. destruct (Nat.ltb_spec p c); [reflexivity|lia].
    + intros p Hp _. rewrite app_nth2 by lia. clear. generalize (p - length (firstn c row))%nat as q. generalize (w - c)%nat as n. induction n; destruct q; cbn; auto.
    + intros u. rewrite Z.add_0_r. destruct (firstn c row) as [|a t] eqn:E; [cbn in Lf; lia|]. cbn [app skipn]. rewrite dot_app, dot_repeat0, Z.add_0_r.
      clear. revert u. induction t as [|b t IH]; intros u; [reflexivity|]. destruct u; [reflexivity|]. cbn [length firstn dot]. rewrite IH. reflexivity.
  - rewrite seq_S, fold_left_app. cbn [Nat.add fold_left]. destruct IH as (L & P1 & P2 & D); [lia|lia|]. set (f := fold_left _ (seq 0 m) _) in *. cbv zeta.
    pose proof (B m ltac:(lia)) as Bm.
    assert (Z0 : nth (c + nth m exp 0%nat) f 0 = 0). { apply P2; [lia|]. intros i Hi. pose proof (I i m ltac:(lia) ltac:(lia)). lia. }
    split; [rewrite zupd_length; exact L|]. split; [|split].
    + intros p Hp. rewrite nth_zupd. destruct (Nat.eqb_spec p (c + nth m exp 0%nat)%nat); [lia|]. cbn [andb]. apply P1. exact Hp.
    + intros p Hp H. rewrite nth_zupd. destruct (Nat.eqb_spec p (c + nth m exp 0%nat)%nat) as [->|N]; [exfalso; apply (H m); [lia|reflexivity]|]. cbn [andb]. apply P2; [exact Hp|]. intros i Hi. apply H. lia.
    + intros u. destruct c as [|c]; [lia|]. cbn [Nat.add]. rewrite skipn_zupd, dot_zupd by (rewrite skipn_length; lia). rewrite D.
      rewrite (firstn_S exp 0%nat) by lia. rewrite (firstn_S (skipn (S c) row) 0) by (rewrite skipn_length; lia). rewrite map_app. rewrite dot_app2 by (rewrite map_length, !firstn_length, skipn_length; lia).
      rewrite !nth_skipn. cbn [map dot]. change (1 + (c + nth m exp 0%nat))%nat with (S c + nth m exp 0%nat)%nat. rewrite Z0.
      replace (S c - 1 + nth m exp 0%nat)%nat with (c + nth m exp 0%nat)%nat by lia. change (S c + m)%nat with (S (c + m)). ring.
Qed.
Lemma expand_row_ok w d src s exp n : div_row d n s (nth s src []) -> (s < n)%nat -> (2 + d <= w)%nat -> increasing exp -> length exp = s -> (forall i, (i < s)%nat -> (2 + d + nth i exp 0 < w)%nat) ->
  let r := expand_row w (2 + d) src s exp in
  length r = w /\ nth 0 r 0 = nth 0 (nth s src []) 0 /\
  (forall k, (forall i, (i < s)%nat -> (nth i exp 0 < k)%nat) -> forall j, (2 + d + k <= j)%nat -> nth j r 0 = 0) /\
  forall u, (1 + d <= length u)%nat -> dot (skipn 1 r) u = dot (skipn 1 (nth s src [])) (firstn (1 + d) u ++ map (fun k => nth (1 + d + k) u 0) exp).
Proof.
  intros (L & N & Z0) Hs Hw I Le B. cbv zeta. unfold expand_row.
  destruct (expand_loop_ok w (2 + d) (nth s src []) exp ltac:(lia) ltac:(lia) Hw I ltac:(intros i Hi; apply B; lia) s ltac:(lia) ltac:(lia)) as (A1 & A2 & A3 & A4). cbv zeta in *.
  set (f := fold_left _ _ _) in *. split; [exact A1|]. split; [apply A2; lia|]. split.
  - intros k Hk j Hj. apply A3; [lia|]. intros i Hi. specialize (Hk i Hi). lia.
  - intros u Lu. rewrite A4. rewrite (firstn_all2 exp) by lia. replace (2 + d - 1)%nat with (1 + d)%nat by lia.
    set (row := nth s src []) in *.
    assert (E : skipn 1 row = skipn 1 (firstn (2 + d) row) ++ skipn (2 + d) row). { rewrite <- (firstn_skipn (2 + d) row) at 1. destruct row; [cbn in L; lia|]. reflexivity. }
    rewrite E. rewrite dot_app2; cycle 1. { rewrite skipn_length, !firstn_length. lia. }
    f_equal.
    + assert (Lk : length (skipn 1 (firstn (2 + d) row)) = (1 + d)%nat) by (rewrite skipn_length, firstn_length; lia).
      rewrite (dot_prefix _ (1 + d) u); [rewrite firstn_all2 by lia; reflexivity|]. intros j Hj. apply nth_overflow. lia.
    + symmetry. rewrite (dot_prefix _ s); [|intros j Hj; rewrite nth_skipn; apply Z0; lia]. f_equal. apply firstn_all2. rewrite map_length. lia.
Qed.

(** ** merging *)
(** the entries of [e] are the positions in [div] of the first rows of [M] *)
Definition placed (w d : nat) (M : mat) (div : mat) (e : list nat) : Prop :=
  (length e <= length M)%nat /\ increasing e /\ (forall i, (i < length e)%nat -> (nth i e 0 < length div)%nat /\ nth (nth i e 0%nat) div [] = expand_row w (2 + d) M i (firstn i e)).
Lemma increasing_snoc e k : increasing e -> (forall i, (i < length e)%nat -> (nth i e 0 < k)%nat) -> increasing (e ++ [k]).
Proof.
  intros I B i j Hij Hj. rewrite app_length in Hj. cbn in Hj. destruct (Nat.eq_dec j (length e)) as [->|N].
  - rewrite (app_nth2 e [k] 0%nat (le_n _)), Nat.sub_diag, app_nth1 by lia. cbn. apply B. lia.
  - rewrite !app_nth1 by lia. apply I; lia.
Qed.
Lemma placed_snoc w d M div e r : placed w d M div e -> (length e < length M)%nat -> r = expand_row w (2 + d) M (length e) e -> placed w d M (div ++ [r]) (e ++ [length div]).
Proof.
  intros (L & I & P) Hl ->. split; [rewrite app_length; cbn; lia|]. split; [apply increasing_snoc; [exact I|intros i Hi; apply P; exact Hi]|].
  intros i Hi. rewrite !app_length in *. cbn in Hi. cbn [length]. destruct (Nat.eq_dec i (length e)) as [->|N].
  - rewrite (app_nth2 e), Nat.sub_diag by lia. cbn [nth]. split; [lia|]. rewrite app_nth2, Nat.sub_diag by lia. cbn [nth]. rewrite firstn_app, Nat.sub_diag, firstn_all, app_nil_r. reflexivity.
  - rewrite (app_nth1 e) by lia. destruct (P i ltac:(lia)) as (A & B). split; [lia|]. rewrite app_nth1 by exact A. rewrite B. rewrite firstn_app. replace (i - length e)%nat with 0%nat by lia. cbn [firstn]. rewrite app_nil_r. reflexivity.
Qed.
Lemma placed_weaken w d M div e r : placed w d M div e -> placed w d M (div ++ [r]) e.
Proof.
  intros (L & I & P). split; [exact L|]. split; [exact I|]. intros i Hi. destruct (P i Hi) as (A & B). rewrite app_length. split; [lia|]. rewrite app_nth1 by exact A. exact B.
Qed.
(** the rows of the result so far *)
Definition rows_ok (K : Prop) (w d : nat) (div : mat) : Prop := forall k, (k < length div)%nat -> length (nth k div []) = w /\ (0 <= nth 0 (nth k div []) 0 /\ (K -> nth 0 (nth k div []) 0 <> 0)) /\ forall j, (2 + d + k <= j)%nat -> nth j (nth k div []) 0 = 0.
Lemma rows_ok_snoc (K : Prop) w d div r : rows_ok K w d div -> length r = w -> (0 <= nth 0 r 0 /\ (K -> nth 0 r 0 <> 0)) -> (forall j, (2 + d + length div <= j)%nat -> nth j r 0 = 0) -> rows_ok K w d (div ++ [r]).
Proof.
  intros R L N Z0 k Hk. rewrite app_length in Hk. cbn in Hk. destruct (Nat.eq_dec k (length div)) as [->|Ne].
  - rewrite app_nth2, Nat.sub_diag by lia. cbn [nth]. auto.
  - rewrite app_nth1 by lia. apply R. lia.
Qed.
Lemma cmp_row_zero r1 r2 k n nc : length r1 = length r2 -> cmp_row r1 r2 k (k + 1) n nc = 0 -> r1 = r2.
Proof.
  intros L. unfold cmp_row. destruct (_ && _); [lia|]. destruct (negb _) eqn:E; [lia|]. intros H. apply seq_cmp_ok in H; [exact H|exact L].
Qed.
Lemma increasing_firstn e k : increasing e -> increasing (firstn k e).
Proof. intros I i j Hij Hj. rewrite firstn_length in Hj. rewrite !nth_firstn. destruct (Nat.ltb_spec i k), (Nat.ltb_spec j k); try lia. apply I; lia. Qed.
Lemma row_fits (K : Prop) w d M n div e : (K -> known M) -> wf_divs d M -> (length M <= n)%nat -> placed w d M div e -> (length e < length M)%nat -> (2 + d + length div < w)%nat ->
  let r := expand_row w (2 + d) M (length e) e in length r = w /\ (0 <= nth 0 r 0 /\ (K -> nth 0 r 0 <> 0)) /\ forall j, (2 + d + length div <= j)%nat -> nth j r 0 = 0.
Proof.
  intros KM W Hn (L & I & P) He Hw. cbv zeta. pose proof (W (length e) He) as R.
  destruct (expand_row_ok w d M (length e) e (length M) R ltac:(lia) ltac:(lia) I eq_refl) as (A & B & C & _).
  { intros i Hi. destruct (P i Hi) as (X & _). lia. }
  cbv zeta in *. split; [exact A|]. split; [rewrite B; destruct R as (_ & N & _); split; [exact N|intros HK; apply KM; [exact HK|exact He]]|]. intros j Hj. apply (C (length div)); [|exact Hj]. intros i Hi. apply P. exact Hi.
Qed.
Lemma merge_loop_ok d M1 M2 : wf_divs d M1 -> wf_divs d M2 -> let n := (length M1 + length M2)%nat in let w := (2 + d + n)%nat in let K := known M1 /\ known M2 in
  forall fuel div e1 e2, (length M1 - length e1 + (length M2 - length e2) < fuel)%nat -> (length div <= length e1 + length e2)%nat ->
  placed w d M1 div e1 -> placed w d M2 div e2 -> rows_ok K w d div ->
  exists div' e1' e2', merge_loop fuel w (2 + d) M1 M2 div e1 e2 = Ok (div', e1', e2') /\ placed w d M1 div' e1' /\ placed w d M2 div' e2' /\ rows_ok K w d div' /\
    length e1' = length M1 /\ length e2' = length M2 /\ (length div' <= n)%nat.
Proof.
  intros W1 W2 n w K. assert (K1 : K -> known M1) by (intros []; assumption). assert (K2 : K -> known M2) by (intros []; assumption). induction fuel as [|f IH]; intros div e1 e2 Hf Hd P1 P2 R; [lia|]. cbn [merge_loop].
  pose proof P1 as (L1 & _). pose proof P2 as (L2 & _).
  destruct (Nat.ltb_spec (length e1) (length M1)) as [H1|H1], (Nat.ltb_spec (length e2) (length M2)) as [H2|H2]; cbn [andb].
  - destruct (row_fits K w d M1 n div e1 K1 W1 ltac:(lia) P1 H1 ltac:(lia)) as (A1 & B1 & C1). destruct (row_fits K w d M2 n div e2 K2 W2 ltac:(lia) P2 H2 ltac:(lia)) as (A2 & B2 & C2). cbv zeta in *.
    set (r1 := expand_row w (2 + d) M1 (length e1) e1) in *. set (r2 := expand_row w (2 + d) M2 (length e2) e2) in *.
    destruct (Z.eqb_spec (cmp_row r1 r2 (length div) (length div + 1) (1 + length M1 + length M2) w) 0) as [E|E].
    + apply cmp_row_zero in E; [|lia]. apply IH.
      * rewrite !app_length. cbn. lia.
      * rewrite !app_length. cbn. lia.
      * apply placed_snoc; [exact P1|exact H1|reflexivity].
      * apply placed_snoc; [exact P2|exact H2|exact E].
      * apply rows_ok_snoc; assumption.
    + destruct (_ <? 0).
      * apply IH; [rewrite !app_length; cbn; lia|rewrite !app_length; cbn; lia|apply placed_snoc; [exact P1|exact H1|reflexivity]|apply placed_weaken; exact P2|apply rows_ok_snoc; assumption].
      * apply IH; [rewrite !app_length; cbn; lia|rewrite !app_length; cbn; lia|apply placed_weaken; exact P1|apply placed_snoc; [exact P2|exact H2|reflexivity]|apply rows_ok_snoc; assumption].
  - destruct (row_fits K w d M1 n div e1 K1 W1 ltac:(lia) P1 H1 ltac:(lia)) as (A1 & B1 & C1). cbv zeta in *.
    apply IH; [rewrite !app_length; cbn; lia|rewrite !app_length; cbn; lia|apply placed_snoc; [exact P1|exact H1|reflexivity]|apply placed_weaken; exact P2|apply rows_ok_snoc; assumption].
  - destruct (row_fits K w d M2 n div e2 K2 W2 ltac:(lia) P2 H2 ltac:(lia)) as (A2 & B2 & C2). cbv zeta in *.
    apply IH; [rewrite !app_length; cbn; lia|rewrite !app_length; cbn; lia|apply placed_weaken; exact P1|apply placed_snoc; [exact P2|exact H2|reflexivity]|apply rows_ok_snoc; assumption].
  - exists div, e1, e2. split; [reflexivity|]. split; [exact P1|]. split; [exact P2|]. split; [exact R|]. lia.
Qed.
Lemma select_length d e w : (1 + d <= length w)%nat -> length (select d e w) = (1 + d + length e)%nat.
Proof. intros H. unfold select. rewrite app_length, map_length, firstn_length. lia. Qed.
Lemma select_nth d e w i : (1 + d <= length w)%nat -> (i < length e)%nat -> nth (1 + d + i) (select d e w) 0 = nth (1 + d + nth i e 0%nat) w 0.
Proof.
  intros H Hi. unfold select. assert (L : length (firstn (1 + d) w) = (1 + d)%nat) by (rewrite firstn_length; lia). rewrite app_nth2 by lia. rewrite L. replace (1 + d + i - (1 + d))%nat with i by lia.
  rewrite (nth_indep _ _ (nth (1 + d + 0) w 0)) by (rewrite map_length; exact Hi). apply (map_nth (fun k => nth (1 + d + k) w 0)).
Qed.
Lemma nth_map_firstn k (div : mat) i : nth i (map (firstn k) div) [] = firstn k (nth i div []).
Proof. transitivity (nth i (map (firstn k) div) (firstn k [])); [rewrite firstn_nil; reflexivity|apply map_nth]. Qed.
(** a solution of the merged integer divisions contains solutions of the original ones *)
Lemma placed_sat (K : Prop) w d M div e u : wf_divs d M -> placed w d M div e -> length e = length M -> rows_ok K w d div -> (length div <= w - 2 - d)%nat -> (2 + d <= w)%nat ->
  sat d (map (firstn (2 + d + length div)) div) u -> sat d M (select d e u).
Proof.
  intros W (L & I & P) Le R Hd Hw (Lu & E1 & H). rewrite map_length in *. assert (Hu : (1 + d <= length u)%nat) by lia. split; [rewrite select_length by exact Hu; lia|]. split.
  { unfold select. rewrite app_nth1 by (rewrite firstn_length; lia). rewrite nth_firstn. exact E1. }
  intros i Hi Nz. destruct (P i ltac:(lia)) as (A & B). rewrite select_nth by lia.
  destruct (expand_row_ok w d M i (firstn i e) (length M) (W i Hi) Hi Hw (increasing_firstn _ _ I)) as (C1 & C2 & C3 & C4).
  { rewrite firstn_length. lia. }
  { intros j Hj. rewrite nth_firstn. destruct (Nat.ltb_spec j i); [|lia]. destruct (P j ltac:(lia)) as (X & _). lia. }
  cbv zeta in *. specialize (H (nth i e 0%nat) A). rewrite nth_map_firstn in H. rewrite B in H. set (r := expand_row w (2 + d) M i (firstn i e)) in *.
  destruct (R _ A) as (R1 & R2 & R3). rewrite B in R1, R2, R3. fold r in R1, R2, R3.
  rewrite nth_firstn in H. cbn [Nat.ltb Nat.leb Nat.add] in H. rewrite C2 in H. change (S (d + nth i e 0))%nat with (1 + d + nth i e 0)%nat in H. rewrite H by exact Nz. f_equal.
  assert (Dr : dot (skipn 1 (firstn (2 + d + length div) r)) u = dot (skipn 1 r) u).
  { rewrite (dot_prefix (skipn 1 r) (1 + d + length div)); [|intros j Hj; rewrite nth_skipn; apply R3; lia]. rewrite (firstn_all2 u) by lia. f_equal. rewrite skipn_firstn_comm. f_equal. }
  change (S (S (d + length div))) with (2 + d + length div)%nat. rewrite Dr, C4 by exact Hu. unfold select.
  set (row := nth i M []) in *. destruct (W i Hi) as (Wl & _ & Wz). fold row in Wl, Wz.
  assert (Zs : forall j, (1 + d + i <= j)%nat -> nth j (skipn 1 row) 0 = 0) by (intros j Hj; rewrite nth_skipn; apply Wz; lia).
  rewrite (dot_prefix _ (1 + d + i) (firstn (1 + d) u ++ _) Zs), (dot_prefix _ (1 + d + i) (firstn (1 + d) u ++ map _ e) Zs). f_equal.
  rewrite !firstn_app, !firstn_firstn, !firstn_map, firstn_firstn, firstn_length. replace (1 + d + i - Nat.min (1 + d) (length u))%nat with i by lia. rewrite Nat.min_id. reflexivity.
Qed.
Theorem merge_divs_ok d M1 M2 : wf_divs d M1 -> wf_divs d M2 ->
  exists div e1 e2, merge_divs d M1 M2 = Ok (div, e1, e2) /\ wf_divs d div /\ (known M1 -> known M2 -> known div) /\
    length e1 = length M1 /\ length e2 = length M2 /\ increasing e1 /\ increasing e2 /\
    (forall i, (i < length e1)%nat -> (nth i e1 0 < length div)%nat) /\ (forall i, (i < length e2)%nat -> (nth i e2 0 < length div)%nat) /\
    (length div <= length M1 + length M2)%nat /\
    forall w, sat d div w -> sat d M1 (select d e1 w) /\ sat d M2 (select d e2 w).
Proof.
  intros W1 W2. unfold merge_divs. set (n := (length M1 + length M2)%nat).
  destruct (merge_loop_ok d M1 M2 W1 W2 (1 + n)%nat [] [] []) as (div & e1 & e2 & E & P1 & P2 & R & L1 & L2 & Ln).
  { cbn. lia. } { cbn. lia. }
  { split; [cbn; lia|]. split; [intros i j Hi Hj; cbn in Hj; lia|intros i Hi; cbn in Hi; lia]. }
  { split; [cbn; lia|]. split; [intros i j Hi Hj; cbn in Hj; lia|intros i Hi; cbn in Hi; lia]. }
  { intros k Hk. cbn in Hk. lia. }
  cbv zeta in *. fold n in E, P1, P2, R, Ln. rewrite E. cbn [bind]. exists (map (firstn (2 + d + length div)) div), e1, e2. split; [reflexivity|]. split.
  { intros i Hi. rewrite map_length in *. rewrite nth_map_firstn. destruct (R i Hi) as (A & (B & _) & C). split; [rewrite firstn_length; lia|]. split; [rewrite nth_firstn; cbn [Nat.ltb Nat.leb Nat.add]; exact B|].
    intros j Hj. rewrite nth_firstn. destruct (Nat.ltb _ _); [apply C; exact Hj|reflexivity]. }
  split. { intros K1 K2 i Hi. rewrite map_length in Hi. rewrite nth_map_firstn, nth_firstn. cbn [Nat.ltb Nat.leb Nat.add]. destruct (R i Hi) as (_ & (_ & B) & _). apply B. split; assumption. }
  rewrite map_length. split; [exact L1|]. split; [exact L2|]. split; [apply P1|]. split; [apply P2|]. split; [intros i Hi; apply P1; exact Hi|]. split; [intros i Hi; apply P2; exact Hi|]. split; [exact Ln|].
  intros u Hu. split; eapply placed_sat; eauto; lia.
Qed.
