(** Proofs about SortModel. *)
From Coq Require Import ZArith List Bool Arith Lia ZifyBool Sorted Permutation.
From Verif Require Import SortModel SortSpec.
Import ListNotations.

Section Sort.
Context {A : Type} (cmp : A -> A -> Z).
Hypothesis TP : total_preorder cmp.

Lemma cmp_flip_gt x y : (cmp x y > 0 <-> cmp y x < 0)%Z.
Proof. pose proof (tp_anti _ TP x y). destruct (cmp x y), (cmp y x); cbn in *; lia. Qed.
Lemma cmp_flip_le x y : (cmp x y <= 0 <-> cmp y x >= 0)%Z.
Proof. pose proof (tp_anti _ TP x y). destruct (cmp x y), (cmp y x); cbn in *; lia. Qed.
Lemma cmp_eq0 x y : (cmp x y = 0 <-> cmp y x = 0)%Z.
Proof. pose proof (tp_anti _ TP x y). destruct (cmp x y), (cmp y x); cbn in *; lia. Qed.
Lemma cmp_refl x : cmp x x = 0%Z.
Proof. pose proof (tp_anti _ TP x x). destruct (cmp x x); cbn in *; lia. Qed.

(** ** the abstract stable merge *)
Fixpoint smerge (l h : list A) {struct l} : list A :=
  let fix inner (h : list A) : list A :=
    match l, h with
    | [], _ => h
    | _, [] => l
    | x :: l', y :: h' => if (cmp x y <=? 0)%Z then x :: smerge l' h else y :: inner h'
    end in
  inner h.
Lemma smerge_nil_l h : smerge [] h = h.
Proof. destruct h; reflexivity. Qed.
Lemma smerge_nil_r l : smerge l [] = l.
Proof. destruct l; reflexivity. Qed.
Lemma smerge_cons x l y h : smerge (x :: l) (y :: h) =
  if (cmp x y <=? 0)%Z then x :: smerge l (y :: h) else y :: smerge (x :: l) h.
Proof. cbn [smerge]. destruct (cmp x y <=? 0)%Z; [|reflexivity]. destruct l; reflexivity. Qed.
Lemma smerge_lows l1 l2 y h : Forall (fun x => (cmp x y <= 0)%Z) l1 ->
  smerge (l1 ++ l2) (y :: h) = l1 ++ smerge l2 (y :: h).
Proof.
  induction 1 as [|x l1 Hx _ IH]; [reflexivity|]. cbn [app]. rewrite smerge_cons.
  replace (cmp x y <=? 0)%Z with true by lia. rewrite IH. reflexivity.
Qed.
Lemma smerge_highs x l h1 h2 : Forall (fun y => (cmp y x < 0)%Z) h1 ->
  smerge (x :: l) (h1 ++ h2) = h1 ++ smerge (x :: l) h2.
Proof.
  induction 1 as [|y h1 Hy _ IH]; [reflexivity|]. cbn [app]. rewrite smerge_cons.
  apply cmp_flip_gt in Hy. replace (cmp x y <=? 0)%Z with false by lia. rewrite IH. reflexivity.
Qed.

Notation sorted := (StronglySorted (fun x y => (cmp x y <= 0)%Z)).

Lemma smerge_perm l : forall h, Permutation (smerge l h) (l ++ h).
Proof.
  induction l as [|x l IHl]; intros h; [rewrite smerge_nil_l; reflexivity|].
  induction h as [|y h IHh]; [rewrite smerge_nil_r, app_nil_r; reflexivity|].
  rewrite smerge_cons. destruct (cmp x y <=? 0)%Z.
  - cbn [app]. constructor. apply IHl.
  - rewrite IHh. apply Permutation_middle.
Qed.
Lemma smerge_sorted l : forall h, sorted l -> sorted h -> sorted (smerge l h).
Proof.
  induction l as [|x l IHl]; intros h Hl; [rewrite smerge_nil_l; auto|].
  induction h as [|y h IHh]; intros Hh; [rewrite smerge_nil_r; exact Hl|].
  rewrite smerge_cons. inversion Hl as [|? ? Sl Fl]. inversion Hh as [|? ? Sh Fh]. subst.
  destruct (Z.leb_spec (cmp x y) 0) as [Le|Gt].
  - constructor; [apply IHl; assumption|].
    apply Forall_forall. intros z Hz. apply (Permutation_in _ (smerge_perm l (y :: h))) in Hz.
    apply in_app_or in Hz as [Hz|[<-|Hz]].
    + rewrite Forall_forall in Fl. auto.
    + exact Le.
    + rewrite Forall_forall in Fh. exact (tp_trans _ TP x y z Le (Fh z Hz)).
  - constructor; [apply IHh; assumption|].
    assert (Hyx : (cmp y x <= 0)%Z) by (apply cmp_flip_le; lia).
    apply Forall_forall. intros z Hz. apply (Permutation_in _ (smerge_perm (x :: l) h)) in Hz.
    apply in_app_or in Hz as [[<-|Hz]|Hz].
    + exact Hyx.
    + rewrite Forall_forall in Fl. exact (tp_trans _ TP y x z Hyx (Fl z Hz)).
    + rewrite Forall_forall in Fh. auto.
Qed.
Lemma filter_none (p : A -> bool) l : (forall x, In x l -> p x = false) -> filter p l = [].
Proof. induction l as [|x l IH]; cbn; intros H; auto. rewrite (H x) by auto. apply IH. auto. Qed.
Lemma smerge_stable z l : forall h, sorted l -> sorted h ->
  filter (fun y => (cmp z y =? 0)%Z) (smerge l h) =
  filter (fun y => (cmp z y =? 0)%Z) l ++ filter (fun y => (cmp z y =? 0)%Z) h.
Proof.
  induction l as [|x l IHl]; intros h Hl; [rewrite smerge_nil_l; auto|].
  induction h as [|y h IHh]; intros Hh; [rewrite smerge_nil_r, app_nil_r; reflexivity|].
  rewrite smerge_cons. inversion Hl as [|? ? Sl Fl]. inversion Hh as [|? ? Sh Fh]. subst.
  destruct (Z.leb_spec (cmp x y) 0) as [Le|Gt].
  - cbn [filter]. rewrite IHl by assumption. cbn [filter].
    destruct (cmp z x =? 0)%Z; reflexivity.
  - assert (Hyx : (cmp y x <= 0)%Z) by (apply cmp_flip_le; lia).
    cbn [filter]. rewrite IHh by assumption. cbn [filter].
    destruct (Z.eqb_spec (cmp z y) 0) as [E|E]; [|reflexivity].
    (* no element of the low part is equivalent to z *)
    assert (Hlow : forall w, In w (x :: l) -> (cmp z w =? 0)%Z = false).
    { intros w Hw. apply Z.eqb_neq. intros Ew.
      assert (Hxw : (cmp x w <= 0)%Z).
      { destruct Hw as [<-|Hw]; [rewrite cmp_refl; lia|]. rewrite Forall_forall in Fl. auto. }
      assert (Hwz : (cmp w z <= 0)%Z) by (apply cmp_eq0 in Ew; lia).
      assert (Hzy : (cmp z y <= 0)%Z) by lia.
      pose proof (tp_trans _ TP x z y (tp_trans _ TP x w z Hxw Hwz) Hzy). lia. }
    rewrite (Hlow x) by (left; reflexivity).
    rewrite (filter_none _ l) by (intros w Hw; apply Hlow; right; exact Hw).
    reflexivity.
Qed.

(** ** slices *)
Lemma skipn_skipn (x y : nat) (l : list A) : skipn x (skipn y l) = skipn (x + y) l.
Proof.
  revert l. induction y as [|y IH]; intros l.
  - rewrite Nat.add_0_r. reflexivity.
  - destruct l as [|a l]; [rewrite !skipn_nil; reflexivity|].
    rewrite Nat.add_succ_r. cbn [skipn]. apply IH.
Qed.
Lemma slice_length (a : list A) i j : i <= j <= length a -> length (slice a i j) = j - i.
Proof. intros H. unfold slice. rewrite firstn_length, skipn_length. lia. Qed.
Lemma slice_app (a : list A) i j k : i <= j <= k -> slice a i j ++ slice a j k = slice a i k.
Proof.
  intros H. unfold slice. replace (skipn j a) with (skipn (j - i) (skipn i a)).
  - rewrite <- (firstn_skipn (j - i) (firstn (k - i) (skipn i a))).
    rewrite firstn_firstn. replace (Nat.min (j - i) (k - i)) with (j - i) by lia. f_equal.
    rewrite skipn_firstn_comm. f_equal. lia.
  - rewrite skipn_skipn. f_equal. lia.
Qed.
Lemma slice_nil (a : list A) i : slice a i i = [].
Proof. unfold slice. rewrite Nat.sub_diag. reflexivity. Qed.
Lemma slice_cons (a : list A) i j x : nth_error a i = Some x -> i < j -> slice a i j = x :: slice a (S i) j.
Proof.
  intros H L. unfold slice. destruct (j - i) as [|n] eqn:E; [lia|]. replace (j - S i) with n by lia. clear E L.
  revert i H. induction a as [|y a IH]; intros [|i] H; cbn in *; try discriminate.
  - congruence.
  - exact (IH i H).
Qed.
Lemma slice_all (a : list A) : slice a 0 (length a) = a.
Proof. unfold slice. cbn [skipn]. rewrite Nat.sub_0_r. apply firstn_all. Qed.
Lemma slice_0 (a : list A) i : slice a 0 i = firstn i a.
Proof. unfold slice. cbn [skipn]. rewrite Nat.sub_0_r. reflexivity. Qed.
Lemma slice_end (a : list A) i : slice a i (length a) = skipn i a.
Proof. unfold slice. rewrite firstn_all2; [reflexivity|]. rewrite skipn_length. lia. Qed.

(** ** the scans *)
Lemma nth_error_ex (a : list A) i : i < length a -> exists x, nth_error a i = Some x.
Proof. intros H. destruct (nth_error a i) eqn:E; [eauto|]. apply nth_error_None in E. lia. Qed.

Lemma scan_lo_ok a am hi y : nth_error a hi = Some y -> am <= length a ->
  forall fuel lo, lo <= am -> am - lo < fuel ->
  exists lo', scan_lo cmp fuel a lo am hi = Some lo' /\ lo <= lo' <= am /\
    Forall (fun x => (cmp x y <= 0)%Z) (slice a lo lo') /\
    (lo' < am -> exists x, nth_error a lo' = Some x /\ (cmp x y > 0)%Z).
Proof.
  intros Hy Ham. induction fuel as [|f IH]; intros lo Hlo Hf; [lia|]. cbn [scan_lo].
  destruct (Nat.leb_spec am lo) as [L|L].
  { exists lo. rewrite slice_nil. repeat split; auto; try lia. }
  destruct (nth_error_ex a lo ltac:(lia)) as [x Hx]. rewrite Hx, Hy.
  destruct (Z.leb_spec (cmp x y) 0) as [C|C].
  - destruct (IH (S lo) ltac:(lia) ltac:(lia)) as (lo' & E & R & F & G). exists lo'.
    split; [exact E|]. split; [lia|]. split; [|exact G].
    rewrite (slice_cons a lo lo' x Hx) by lia. constructor; assumption.
  - exists lo. rewrite slice_nil. split; [reflexivity|]. split; [lia|]. split; [constructor|].
    intros _. exists x. split; [exact Hx|lia].
Qed.
Lemma scan_hi_ok a lo ah x : nth_error a lo = Some x -> ah <= length a ->
  forall fuel hi, hi <= ah -> ah - hi < fuel ->
  exists hi', scan_hi cmp fuel a lo hi ah = Some hi' /\ hi <= hi' <= ah /\
    Forall (fun y => (cmp y x < 0)%Z) (slice a hi hi') /\
    (hi' < ah -> exists y, nth_error a hi' = Some y /\ (cmp x y <= 0)%Z).
Proof.
  intros Hx Hah. induction fuel as [|f IH]; intros hi Hhi Hf; [lia|]. cbn [scan_hi].
  destruct (Nat.leb_spec ah hi) as [L|L].
  { exists hi. rewrite slice_nil. repeat split; auto; try lia. }
  destruct (nth_error_ex a hi ltac:(lia)) as [y Hy]. rewrite Hy, Hx.
  destruct (Z.ltb_spec (cmp y x) 0) as [C|C].
  - destruct (IH (S hi) ltac:(lia) ltac:(lia)) as (hi' & E & R & F & G). exists hi'.
    split; [exact E|]. split; [lia|]. split; [|exact G].
    rewrite (slice_cons a hi hi' y Hy) by lia. constructor; assumption.
  - exists hi. rewrite slice_nil. split; [reflexivity|]. split; [lia|]. split; [constructor|].
    intros _. exists y. split; [exact Hy|]. apply cmp_flip_le. lia.
Qed.

(** ** the merge loop *)
(** result of merging: only positions [al..ah) change *)
Definition merged (a : list A) al am ah : list A :=
  firstn al a ++ smerge (slice a al am) (slice a am ah) ++ skipn ah a.

Lemma firstn_slice (a : list A) al a1 : al <= a1 -> firstn a1 a = firstn al a ++ slice a al a1.
Proof. intros. rewrite <- !slice_0, slice_app by lia. reflexivity. Qed.
Lemma skipn_slice (a : list A) hi ah : hi <= ah <= length a -> skipn hi a = slice a hi ah ++ skipn ah a.
Proof. intros. rewrite <- !slice_end, slice_app by lia. reflexivity. Qed.

(** one iteration, once [lo] and [hi] are known to be comparable as below *)
Lemma merge_loop_inv a al am ah : al < am -> am < ah -> ah <= length a ->
  forall fuel lo hi a1 b,
  am < hi < ah -> al <= lo < am -> ah - hi < fuel -> al <= a1 <= lo ->
  (exists x y, nth_error a lo = Some x /\ nth_error a hi = Some y /\ (cmp x y <= 0)%Z) ->
  b <> [] -> a1 + length b = lo + (hi - am) ->
  smerge (slice a al am) (slice a am ah) = slice a al a1 ++ b ++ smerge (slice a lo am) (slice a hi ah) ->
  merge_loop cmp fuel a al am ah lo hi a1 b = Some (merged a al am ah).
Proof.
  intros H1 H2 H3. induction fuel as [|f IH]; intros lo hi a1 b Hhi Hlo Hf Ha1 (x & y & Ex & Ey & Cxy) Hb Hlen Hm; [lia|].
  cbn [merge_loop]. replace ((al <? lo) || (am <? hi)) with true by lia.
  destruct (scan_lo_ok a am hi y Ey ltac:(lia) (S (length a)) (S lo) ltac:(lia) ltac:(lia)) as (lo' & E & R & F & G).
  rewrite E. clear E.
  assert (F' : Forall (fun x => (cmp x y <= 0)%Z) (slice a lo lo')).
  { rewrite (slice_cons a lo lo' x Ex) by lia. constructor; assumption. }
  assert (Eh : slice a hi ah = y :: slice a (S hi) ah) by (apply slice_cons; [exact Ey|lia]).
  rewrite <- (slice_app a lo lo' am) in Hm by lia. rewrite Eh, smerge_lows in Hm by exact F'.
  destruct (Nat.ltb_spec lo' am) as [L|L].
  - destruct (G L) as (x' & Ex' & Cx').
    destruct (scan_hi_ok a lo' ah x' Ex' H3 (S (length a)) (S hi) ltac:(lia) ltac:(lia)) as (hi' & E & R' & Fh & Gh).
    destruct b as [|b0 b1]; [congruence|]. set (b := b0 :: b1) in *. rewrite E. clear E.
    assert (Fh' : Forall (fun y => (cmp y x' < 0)%Z) (slice a hi hi')).
    { rewrite (slice_cons a hi hi' y Ey) by lia. constructor; [apply cmp_flip_gt; lia|exact Fh]. }
    rewrite <- Eh in Hm. rewrite <- (slice_app a hi hi' ah) in Hm by lia.
    assert (El : slice a lo' am = x' :: slice a (S lo') am) by (apply slice_cons; [exact Ex'|lia]).
    rewrite El, smerge_highs, <- El in Hm by exact Fh'.
    assert (Hlen' : a1 + length (b ++ slice a lo lo' ++ slice a hi hi') = lo' + (hi' - am)).
    { rewrite !app_length, !slice_length by lia. lia. }
    destruct (Nat.ltb_spec hi' ah) as [Lh|Lh].
    + apply IH; auto; try lia.
      * destruct (Gh Lh) as (y' & Ey' & Cy'). exists x', y'. auto.
      * discriminate.
      * rewrite Hm, <- !app_assoc. reflexivity.
    + assert (hi' = ah) by lia. subst hi'. rewrite slice_nil, smerge_nil_r in Hm.
      f_equal. unfold blit, merged. rewrite Hm.
      rewrite (firstn_slice a al a1) by lia. rewrite !app_length, !slice_length in * by lia.
      rewrite <- !app_assoc. repeat f_equal. lia.
  - assert (lo' = am) by lia. subst lo'. rewrite slice_nil, smerge_nil_l, <- Eh in Hm.
    destruct b as [|b0 b1]; [congruence|]. set (b := b0 :: b1) in *.
    f_equal. unfold blit, merged. rewrite Hm.
    rewrite (firstn_slice a al a1) by lia. rewrite !app_length, !slice_length by lia.
    rewrite <- !app_assoc. replace (a1 + (length b + (am - lo))) with hi by lia.
    rewrite (skipn_slice a hi ah) by lia. reflexivity.
Qed.

Lemma merge_loop_ok a al am ah : al < am -> am < ah -> ah <= length a ->
  merge_loop cmp (S (length a)) a al am ah al am al [] = Some (merged a al am ah).
Proof.
  intros H1 H2 H3. cbn [merge_loop]. replace ((al <? al) || (am <? am)) with false by lia.
  destruct (nth_error_ex a am ltac:(lia)) as [y Ey].
  destruct (scan_lo_ok a am am y Ey ltac:(lia) (S (length a)) al ltac:(lia) ltac:(lia)) as (lo' & E & R & F & G).
  rewrite E. clear E.
  assert (Eh : slice a am ah = y :: slice a (S am) ah) by (apply slice_cons; [exact Ey|lia]).
  assert (Hm : smerge (slice a al am) (slice a am ah) = slice a al lo' ++ smerge (slice a lo' am) (slice a am ah)).
  { rewrite <- (slice_app a al lo' am) by lia. rewrite Eh. apply smerge_lows. exact F. }
  destruct (Nat.ltb_spec lo' am) as [L|L].
  - destruct (G L) as (x' & Ex' & Cx').
    destruct (scan_hi_ok a lo' ah x' Ex' H3 (S (length a)) (S am) ltac:(lia) ltac:(lia)) as (hi' & E & R' & Fh & Gh).
    rewrite E. clear E. rewrite slice_nil. cbn [app].
    assert (Fh' : Forall (fun y => (cmp y x' < 0)%Z) (slice a am hi')).
    { rewrite (slice_cons a am hi' y Ey) by lia. constructor; [apply cmp_flip_gt; lia|exact Fh]. }
    rewrite <- (slice_app a am hi' ah) in Hm at 2 by lia.
    assert (El : slice a lo' am = x' :: slice a (S lo') am) by (apply slice_cons; [exact Ex'|lia]).
    rewrite El, smerge_highs, <- El in Hm by exact Fh'.
    assert (Hlb : length (slice a am hi') = hi' - am) by (apply slice_length; lia).
    destruct (Nat.ltb_spec hi' ah) as [Lh|Lh].
    + apply merge_loop_inv; auto; try lia.
      * destruct (Gh Lh) as (y' & Ey' & Cy'). exists x', y'. auto.
      * intros E0. rewrite E0 in Hlb. cbn in Hlb. lia.
    + assert (hi' = ah) by lia. subst hi'. rewrite slice_nil, smerge_nil_r in Hm.
      f_equal. unfold blit, merged. rewrite Hm.
      rewrite (firstn_slice a al lo') by lia. rewrite !app_length, Hlb, slice_length by lia.
      rewrite <- !app_assoc. repeat f_equal. lia.
  - assert (lo' = am) by lia. subst lo'. rewrite slice_nil, smerge_nil_l in Hm.
    f_equal. unfold merged. rewrite Hm. rewrite slice_app by lia.
    rewrite <- (slice_end a ah), <- (slice_0 a al). rewrite slice_app, slice_app, slice_all by lia. reflexivity.
Qed.

(** ** msort *)
(** positions [low..high] sorted stably, the others unchanged *)
Definition sorts (a a' : list A) low ah : Prop :=
  exists s, a' = firstn low a ++ s ++ skipn ah a /\ length s = ah - low /\
    Permutation (slice a low ah) s /\ sorted s /\ stable cmp (slice a low ah) s.

Lemma slice_replace (a : list A) s low ah i j : low <= ah <= length a -> length s = ah - low ->
  i <= j <= length a -> (j <= low \/ ah <= i) ->
  slice (firstn low a ++ s ++ skipn ah a) i j = slice a i j.
Proof.
  intros H1 H2 H3 [H|H]; unfold slice.
  - rewrite skipn_app, firstn_app. rewrite firstn_length, skipn_length, firstn_length.
    replace (j - i - (Nat.min low (length a) - i)) with 0 by lia. rewrite firstn_O, app_nil_r.
    rewrite skipn_firstn_comm, firstn_firstn. f_equal. lia.
  - rewrite app_assoc, skipn_app, app_length, firstn_length.
    rewrite skipn_all2 by (rewrite app_length, firstn_length; lia). cbn [app].
    rewrite skipn_skipn, H2. f_equal. f_equal. lia.
Qed.
Lemma slice_replaced (a : list A) s low ah : low <= ah <= length a -> length s = ah - low ->
  slice (firstn low a ++ s ++ skipn ah a) low ah = s.
Proof.
  intros H1 H2. unfold slice. rewrite skipn_app, firstn_length.
  rewrite skipn_all2 by (rewrite firstn_length; lia). cbn [app].
  replace (low - Nat.min low (length a)) with 0 by lia. cbn [skipn].
  rewrite firstn_app. replace (ah - low - length s) with 0 by lia. rewrite firstn_O, app_nil_r.
  apply firstn_all2. lia.
Qed.
Lemma sorts_length a a' low ah : low <= ah <= length a -> sorts a a' low ah -> length a' = length a.
Proof. intros H (s & -> & L & _). rewrite !app_length, firstn_length, skipn_length. lia. Qed.

Lemma sorts_single a i : i < length a -> sorts a a i (S i).
Proof.
  intros H. destruct (nth_error_ex a i H) as [x Hx]. exists [x].
  assert (E : slice a i (S i) = [x]) by (rewrite (slice_cons a i (S i) x Hx), slice_nil by lia; reflexivity).
  split.
  - rewrite <- E, <- slice_0, <- slice_end, !slice_app, slice_all by lia. reflexivity.
  - rewrite E. split; [cbn [length]; lia|]. split; [reflexivity|]. split; [repeat constructor|]. intros z. reflexivity.
Qed.

Lemma msort_ok : forall fuel a low high, low < high < length a -> high - low < fuel ->
  exists a', msort cmp fuel a low high = Some a' /\ sorts a a' low (S high).
Proof.
  induction fuel as [|f IH]; intros a low high H Hf; [lia|]. cbn [msort].
  set (mid := low + (high - low) / 2).
  assert (Hmid : low <= mid < high).
  { pose proof (Nat.div_lt (high - low) 2 ltac:(lia) ltac:(lia)). unfold mid. lia. }
  clearbody mid.
  assert (P1 : exists a1, (if S mid <? high then msort cmp f a (S mid) high else Some a) = Some a1 /\ sorts a a1 (S mid) (S high)).
  { destruct (Nat.ltb_spec (S mid) high) as [L|L].
    - apply IH; lia.
    - exists a. split; [reflexivity|]. assert (high = S mid) by lia. subst high. apply sorts_single. lia. }
  destruct P1 as (a1 & -> & S1). pose proof (sorts_length a a1 (S mid) (S high) ltac:(lia) S1) as L1.
  assert (P2 : exists a2, (if low <? mid then msort cmp f a1 low mid else Some a1) = Some a2 /\ sorts a1 a2 low (S mid)).
  { destruct (Nat.ltb_spec low mid) as [L|L].
    - apply IH; lia.
    - exists a1. split; [reflexivity|]. assert (mid = low) by lia. subst mid. apply sorts_single. lia. }
  destruct P2 as (a2 & -> & S2). pose proof (sorts_length a1 a2 low (S mid) ltac:(lia) S2) as L2.
  rewrite merge_loop_ok by lia. eexists. split; [reflexivity|].
  destruct S1 as (s1 & E1 & Ls1 & P1 & So1 & St1).
  destruct S2 as (s2 & E2 & Ls2 & P2 & So2 & St2).
  (* slices of the intermediate arrays *)
  assert (Q1 : slice a1 low (S mid) = slice a low (S mid)) by (rewrite E1; apply slice_replace; lia).
  assert (Q2 : slice a2 (S mid) (S high) = s1).
  { rewrite E2, slice_replace by lia. rewrite E1. apply slice_replaced; lia. }
  assert (Q3 : slice a2 low (S mid) = s2) by (rewrite E2; apply slice_replaced; lia).
  assert (Q4 : firstn low a2 = firstn low a).
  { rewrite <- !slice_0, E2, slice_replace by lia. rewrite E1. apply slice_replace; lia. }
  assert (Q5 : skipn (S high) a2 = skipn (S high) a).
  { rewrite <- !slice_end, L2, L1. rewrite E2, slice_replace by lia. rewrite E1. apply slice_replace; lia. }
  exists (smerge s2 s1). unfold merged. rewrite Q2, Q3, Q4, Q5. split; [reflexivity|].
  pose proof (smerge_perm s2 s1) as Pm. rewrite Q1 in *.
  split; [rewrite (Permutation_length Pm), app_length; lia|].
  rewrite <- (slice_app a low (S mid) (S high)) by lia.
  split; [rewrite Pm; apply Permutation_app; assumption|].
  split; [apply smerge_sorted; assumption|].
  intros z. rewrite smerge_stable, filter_app by assumption. rewrite (St1 z), (St2 z). reflexivity.
Qed.

Theorem isl_sort_ok alloc a :
  (exists a', isl_sort cmp alloc a = SOk a' /\ sorted_rearrangement cmp a a' /\ stable cmp a a') \/
  (alloc = false /\ isl_sort cmp alloc a = SErr a).
Proof.
  unfold isl_sort. destruct (Nat.ltb_spec (length a) 2) as [L|L].
  { left. exists a. split; [reflexivity|]. split; [|intros x; reflexivity]. split; [reflexivity|].
    destruct a as [|x [|y a]]; cbn in L; try lia; repeat constructor. }
  destruct alloc; cbn [negb]; [left|right; auto].
  destruct (msort_ok (length a) a 0 (length a - 1) ltac:(lia) ltac:(lia)) as (a' & E & s & Ea & Ls & P & So & St).
  rewrite E. exists a'. split; [reflexivity|].
  replace (S (length a - 1)) with (length a) in * by lia.
  rewrite slice_all in *. cbn [firstn app] in Ea. rewrite skipn_all, app_nil_r in Ea. subst a'.
  split; [split; assumption|exact St].
Qed.
End Sort.
