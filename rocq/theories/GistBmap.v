(** The gist of basic maps. *)
From Coq Require Import ZArith List Bool Arith Lia.
From Verif Require Import SeqModel SeqSpec SeqProofs MatModel MatTheory BMapLists BMapModel BMapSpec BMapSem BMapGauss BMapGauss2 BMapOrder BDupModel BDupProofs LocalModel LocalProofs BElimModel BElimSpec BElimProofs BElimCols SimpModel SimpSpec SimpBase SimpDrop SimpNew SimpFinal SetModel SetSpec SetBase SetLift SetOps SetOps2 SetOps3 SetProject SetMaps SubModel SubBase SubMaps GistModel GistSpec GistFlat GistFull GistUset GistComp GistSet GistAlign GistOver.
Import ListNotations.
Open Scope Z_scope.

(** ** the points of a basic map with known integer divisions *)
Lemma values_unique b x e e' : explicit (nvar b) (ndiv b) (b_div b) -> length x = (1 + nvar b)%nat -> length e = ndiv b -> length e' = ndiv b ->
  divisions (b_div b) (1 + nvar b) (x ++ e) -> divisions (b_div b) (1 + nvar b) (x ++ e') -> e = e'.
Proof.
  intros EX Lx Le Le' D D'. apply (nth_ext _ _ 0 0); [lia|]. intros k Hk. assert (FX : forall y, firstn (1 + nvar b) (x ++ y) = x) by (intros y; rewrite <- Lx, firstn_app, firstn_all, Nat.sub_diag; apply app_nil_r).
  pose proof (explicit_unique (nvar b) (b_div b) (ndiv b) (x ++ e) (x ++ e') EX D D') as U. rewrite !app_length in U. specialize (U ltac:(lia) ltac:(lia)). rewrite !FX in U. specialize (U eq_refl (1 + nvar b + k)%nat ltac:(lia)). rewrite !app_nth2 in U by lia. replace (1 + nvar b + k - length x)%nat with k in U by lia. exact U.
Qed.
Lemma points_at b x e : proper b -> explicit (nvar b) (ndiv b) (b_div b) -> length x = (1 + nvar b)%nat -> hd 0 x = 1 -> length e = ndiv b -> divisions (b_div b) (1 + nvar b) (x ++ e) ->
  (points b x <-> sat b (x ++ e)).
Proof.
  intros P EX Lx Hx Le D. rewrite (points_described b x P Lx Hx). unfold described. split.
  - intros (e' & Le' & S). replace e with e'; [exact S|]. apply (values_unique b x e' e EX Lx Le' Le); [|exact D]. apply P; [rewrite app_length; unfold total; lia|destruct x; [discriminate Lx|exact Hx]|exact S].
  - intros S. exists e. split; [exact Le|exact S].
Qed.
Lemma underlying_flat b : proper b -> flat (total b) (underlying b).
Proof.
  intros (W & _ & _ & _ & R & H). apply flat_intro; [|split; [reflexivity|split; reflexivity]|reflexivity|exact R|].
  - destruct W as (We & Wi & _). assert (T : total (underlying b) = total b) by (unfold total at 1, nvar, ndiv; cbn; unfold total; lia). unfold wf. rewrite T. split; [exact We|]. split; [exact Wi|constructor].
  - intros E v Lv Hv S. assert (T : total (underlying b) = total b) by (unfold total at 1, nvar, ndiv; cbn; unfold total; lia). rewrite T in Lv. exact (H E v Lv Hv S).
Qed.
Lemma dot_long r u w : (length r <= length u)%nat -> dot r (u ++ w) = dot r u.
Proof. intros L. rewrite (LocalProofs.dot_prefix r (length r) (u ++ w)) by (intros j Hj; apply nth_overflow; exact Hj). rewrite (LocalProofs.dot_prefix r (length r) u) by (intros j Hj; apply nth_overflow; exact Hj). rewrite (firstn_app _ u w). replace (length r - length u)%nat with 0%nat by lia. cbn [firstn]. rewrite app_nil_r. reflexivity. Qed.
(** the values of the integer divisions of [b] at a point of an aligned basic map *)
Lemma aligned_values b c x d f : wf b -> begins (ndiv b) (b_div c) (b_div b) -> (ndiv b <= ndiv c)%nat -> nvar c = nvar b -> length x = (1 + nvar b)%nat -> length d = ndiv b ->
  divisions (b_div c) (1 + nvar c) (x ++ d ++ f) -> divisions (b_div b) (1 + nvar b) (x ++ d).
Proof.
  intros W B L NV Lx Ld D k Hk. fold (ndiv b) in Hk. specialize (D k ltac:(unfold ndiv in *; lia)). rewrite NV in D. apply (rowlike_division _ _ _ _ (B k Hk)) in D. rewrite app_assoc in D. rewrite app_nth1 in D by (rewrite app_length; lia). unfold division in *. rewrite dot_long in D; [exact D|]. pose proof (div_len b k W Hk) as Lk. unfold total in Lk. rewrite app_length. destruct (nth k (b_div b) []); cbn in *; lia.
Qed.
Lemma pad_sat n s m v w : flat n s -> length v = (1 + n)%nat -> length w = m -> (system (map (pad m) (b_eq s)) (map (pad m) (b_ineq s)) (v ++ w) <-> sat s v).
Proof.
  intros F Lv Lw. destruct (flat_wf n s F) as (We & Wi). unfold sat, system. rewrite !Forall_map. unfold rows_of in *. rewrite !Forall_forall in *. unfold zero_on, nonneg_on.
  assert (Q : forall r, length r = (1 + n)%nat -> dot (pad m r) (v ++ w) = dot r v). { intros r Lr. rewrite pad_dot by (rewrite app_length; lia). f_equal. rewrite Lr, <- Lv, firstn_app, firstn_all, Nat.sub_diag. apply app_nil_r. }
  split; intros [A B]; (split; intros r Hr; [specialize (A r Hr); rewrite Q in * by (apply We; exact Hr); exact A|specialize (B r Hr); rewrite Q in * by (apply Wi; exact Hr); exact B]).
Qed.
Lemma add_dims_ok n s m : flat n s -> emptied s -> let s' := add_set_dims s m in
  flat (n + m) s' /\ emptied s' /\ (forall c, (n <= c < n + m)%nat -> zcol c s') /\ forall v w, at_point n v -> length w = m -> (sat s' (v ++ w) <-> sat s v).
Proof.
  intros F EM s'. unfold s', add_set_dims. destruct (Nat.eqb_spec m 0) as [->|M0].
  { rewrite Nat.add_0_r. split; [exact F|]. split; [exact EM|]. split; [intros c Hc; lia|]. intros v w _ Lw. destruct w; [rewrite app_nil_r; tauto|discriminate Lw]. }
  pose proof F as (P & (S1 & S2 & S3) & D). rewrite S3. destruct (b_empty s) eqn:E.
  - destruct (empty_set_flat (n + m)) as (FE & NE & EB). split; [exact FE|]. split; [intros _; reflexivity|]. split.
    + intros c Hc. unfold empty_set, set_to_empty. cbn. split; [|constructor]. constructor; [|constructor]. unfold zrow. cbn. apply nth_repeat.
    + intros v w (Lv & Hv) Lw. split; intros H; exfalso.
      * apply (NE (v ++ w)); [split; [rewrite app_length; lia|destruct v; [discriminate Lv|exact Hv]]|exact H].
      * assert (Q : b_empty s = false) by (apply (flat_nonempty n s v F); [split; assumption|exact H]). congruence.
  - destruct (flat_wf n s F) as (We & Wi). set (s1 := mkb 0 0 (n + m) _ _ _ _ _ _). assert (T : total s1 = (n + m)%nat) by (unfold total, nvar, ndiv; cbn; lia).
    assert (PR : forall l, rows_of (1 + n) l -> rows_of (1 + (n + m)) (map (pad m) l)). { intros l R. unfold rows_of in *. rewrite Forall_map. eapply Forall_impl; [|exact R]. cbn beta. intros r Hr. unfold pad. rewrite app_length, repeat_length. lia. }
    split; [|split; [intros C; discriminate C|split]].
    + apply flat_intro; [|split; [reflexivity|split; reflexivity]|reflexivity|apply P|intros C; discriminate C]. unfold wf. rewrite T. split; [apply PR; exact We|]. split; [apply PR; exact Wi|constructor].
    + intros c Hc. assert (Q : forall l, rows_of (1 + n) l -> Forall (zrow c) (map (pad m) l)). { intros l R. rewrite Forall_map. eapply Forall_impl; [|exact R]. cbn beta. intros r Hr. unfold zrow, pad. rewrite app_nth2 by lia. apply nth_repeat. } split; apply Q; assumption.
    + intros v w (Lv & Hv) Lw. apply (pad_sat n s m v w F Lv Lw).
Qed.
Lemma redundancies_same no_redundant tab b b1 : sound_tab tab -> proper b -> remove_redundancies no_redundant tab b = Ok b1 -> same b b1 /\ (b_empty b = false -> good b1 /\ ordered b1).
Proof.
  intros TAB PB E. destruct (b_empty b) eqn:EB.
  - split; [|discriminate]. unfold remove_redundancies in E. destruct (gauss b) as [[b2 p]| | |] eqn:EG; try discriminate. pose proof (gauss_same b b2 p PB EG) as SG. rewrite (flagged_unmark b EB), gauss_flagged in EG. destruct (gauss (unmark b)) as [[b3 p3]| | |]; try discriminate. injection EG as <- <-. cbn [flagged b_empty] in E. injection E as <-. exact SG.
  - destruct (remove_redundancies_pres no_redundant tab TAB b b1 (proper_good b PB EB) E) as (PR & O). split; [apply pres_same_points; [apply PB|exact PR]|]. intros _. split; [apply PR|exact O].
Qed.
Lemma drop_swap_in (l : list row) k r : (k < length l)%nat -> In r l -> In r (drop_swap l k) \/ r = nth k l [].
Proof.
  intros Hk. unfold drop_swap. destruct (exists_last (l := l)) as (l0 & z & ->); [intros ->; cbn in Hk; lia|]. rewrite last_last. rewrite app_length in Hk. cbn in Hk. intros Hr. destruct (Nat.eq_dec k (length l0)) as [->|N].
  - rewrite nth_middle || rewrite app_nth2, Nat.sub_diag by lia. cbn [nth]. apply in_app_or in Hr as [Hr|[<-|[]]]; [|right; reflexivity]. left.
    assert (Q : lset (l0 ++ [z]) (length l0) z = l0 ++ [z]). { clear. induction l0 as [|a l0 IH]; cbn; [reflexivity|]. f_equal. exact IH. } rewrite Q, removelast_last. exact Hr.
  - assert (Hk' : (k < length l0)%nat) by lia. assert (Q : lset (l0 ++ [z]) k z = lset l0 k z ++ [z]). { clear -Hk'. revert k Hk'. induction l0 as [|a l0 IH]; intros k Hk'; [cbn in Hk'; lia|]. destruct k; [reflexivity|]. cbn [app lset]. f_equal. apply IH. cbn in Hk'. lia. }
    rewrite Q, removelast_last. rewrite app_nth1 by exact Hk'. apply in_app_or in Hr as [Hr|[<-|[]]].
    + apply (In_nth _ _ []) in Hr as (i & Hi & <-). destruct (Nat.eq_dec i k) as [->|]; [right; reflexivity|left]. rewrite <- (nth_lset_neq l0 k i z []) by assumption. apply nth_In. rewrite lset_length. exact Hi.
    + left. rewrite <- (nth_lset_eq l0 k z []) at 1 by exact Hk'. apply nth_In. rewrite lset_length. exact Hk'.
Qed.
Section Params.
Variables (sid : bmap -> bool) (hash : row -> nat) (no_redundant : bmap -> bool) (tab : bmap -> bool * list kind) (fuel : nat).
Hypothesis TAB : sound_tab tab.

(** ** removing constraints that are implied by parallel ones *)
Lemma remove_loop_ok m t l : rows_of m l -> inside t (length l) -> forall n k s s', rows_of m (b_ineq s) -> remove_loop hash n t l k s = Ok s' ->
  exists L, s' = set_ineq s L /\ incl L (b_ineq s) /\ forall r, In r (b_ineq s) -> In r L \/ shadowed l r.
Proof.
  intros RL IN. assert (SI : forall s, s = set_ineq s (b_ineq s)) by (intros []; reflexivity). induction n as [|n IH]; intros k s s' RS; cbn [remove_loop].
  - destruct (Nat.leb _ _); [|discriminate]. intros [= <-]. exists (b_ineq s). split; [apply SI|]. split; [apply incl_refl|auto].
  - destruct (Nat.leb_spec (length (b_ineq s)) k) as [L|L]; [intros [= <-]; exists (b_ineq s); split; [apply SI|]; split; [apply incl_refl|auto]|].
    destruct (is_redundant hash t l (nth k (b_ineq s) [])) as [red| | |] eqn:ER; cbn [bind]; try discriminate. destruct red; [|apply IH; exact RS]. intros E.
    assert (RS' : rows_of m (b_ineq (drop_inequality s k))). { cbn. unfold rows_of in *. rewrite Forall_forall in *. intros r Hr. apply RS, (drop_swap_incl _ k L), Hr. }
    destruct (IH k _ s' RS' E) as (L' & -> & I1 & I2). exists L'. split; [reflexivity|]. split; [intros r Hr; apply (drop_swap_incl _ k L), (I1 r Hr)|].
    intros r Hr. destruct (drop_swap_in _ k r L Hr) as [Q|Q]; [apply I2; exact Q|]. right. right. subst r. apply (is_redundant_ok hash m t l); [exact RL|unfold rows_of in RS; rewrite Forall_forall in RS; apply RS, nth_In; exact L|exact IN|exact ER].
Qed.
Lemma remove_shifted_ok n s ctx s' : flat n s -> b_empty s = false -> flat n ctx -> remove_shifted hash s ctx = Ok s' ->
  flat n s' /\ forall v, at_point n v -> sat ctx v -> (sat s' v <-> sat s v).
Proof.
  intros F E FC. unfold remove_shifted. destruct (Nat.eqb _ _); [intros [= <-]; split; [exact F|tauto]|]. destruct (constraint_index hash (b_ineq ctx)) as [t| | |] eqn:ET; cbn [bind]; try discriminate. intros ER.
  destruct (flat_wf n s F) as (We & Wi). destruct (flat_wf n ctx FC) as (_ & Wc). destruct (remove_loop_ok (1 + n) t (b_ineq ctx) Wc (constraint_index_inside hash _ _ ET) _ _ s s' Wi ER) as (L & -> & I1 & I2). pose proof F as (P & SZ & D). split.
  - apply flat_intro; [|exact SZ|exact D|apply P|intros C; cbn in C; congruence]. destruct (proj1 P) as (W1 & W2 & W3). split; [exact W1|]. split; [|exact W3]. unfold rows_of in *. rewrite Forall_forall in *. intros r Hr. apply W2, I1, Hr.
  - intros v Av (_ & SC). unfold sat, system. cbn [set_ineq b_eq b_ineq]. rewrite !Forall_forall. split; intros [A B]; (split; [exact A|]); intros r Hr.
    + destruct (I2 r Hr) as [Q|Q]; [apply B; exact Q|]. apply (shadowed_ok (b_ineq ctx) r n v Q Av SC).
    + apply B, I1, Hr.
Qed.
Lemma shifted_ok b ctx b' np ni no x : okb np ni no b -> emptied b -> okb np ni no ctx -> ordered ctx -> length x = (1 + (np + ni + no))%nat -> hd 0 x = 1 -> points ctx x ->
  remove_shifted_constraints sid hash no_redundant tab fuel b ctx = Ok b' -> okb np ni no b' /\ (points b' x <-> points b x).
Proof.
  intros (P & SZ) EM (PC & SC) OC Lx Hx PX. unfold remove_shifted_constraints. destruct (Nat.eqb (length (b_ineq b)) 0 || _) eqn:EQ; [intros [= <-]; split; [split; assumption|tauto]|]. apply orb_false_iff in EQ as [EQ _]. apply Nat.eqb_neq in EQ.
  assert (EB : b_empty b = false). { destruct (b_empty b) eqn:E; [|reflexivity]. exfalso. apply EQ. rewrite (EM E). reflexivity. }
  destruct (order_divs b) as [b1| | |] eqn:E1; cbn [bind]; try discriminate. destruct (order_same b b1 P E1) as (S1 & O1 & F1). destruct (align_divs ctx b1) as [c1| | |] eqn:E2; cbn [bind]; try discriminate.
  assert (NVB : nvar b = (np + ni + no)%nat) by (destruct SZ as (A & B & C); unfold nvar; lia). assert (NVC : nvar ctx = (np + ni + no)%nat) by (destruct SC as (A & B & C); unfold nvar; lia). assert (NV1 : nvar b1 = (np + ni + no)%nat) by (rewrite (same_at_total _ _ (proj1 S1)); exact NVB).
  pose proof (proj1 (proj2 S1)) as P1. destruct (align_ok ctx b1 c1 PC P1 O1 ltac:(congruence) E2) as (S2 & L2 & B2 & X2 & _ & OO2). specialize (OO2 OC). pose proof (proj1 (proj2 S2)) as PC1. assert (NVC1 : nvar c1 = (np + ni + no)%nat) by (rewrite (same_at_total _ _ (proj1 S2)); exact NVC).
  destruct (align_divs b1 c1) as [b2| | |] eqn:E3; cbn [bind]; try discriminate. destruct (align_ok b1 c1 b2 P1 PC1 OO2 ltac:(congruence) E3) as (S3 & L3 & B3 & X3 & CN & OO3). pose proof (proj1 (proj2 S3)) as P2. assert (NV2 : nvar b2 = (np + ni + no)%nat) by (rewrite (same_at_total _ _ (proj1 S3)); exact NV1).
  assert (ND : ndiv b2 = ndiv c1). { rewrite CN; [lia|]. intros k Hk. apply rowlike_sym, B2. lia. } clear CN.
  assert (TT : total c1 = total b2) by (unfold total; lia). destruct (remove_shifted hash (underlying b2) (underlying c1)) as [s| | |] eqn:E4; cbn [bind]; try discriminate. intros E5.
  pose proof (underlying_flat b2 P2) as FB. pose proof (underlying_flat c1 PC1) as FC. rewrite TT in FC.
  assert (SB : same b b2) by exact (same_trans _ _ _ S1 S3).
  assert (SZ2 : sized np ni no b2) by (apply (same_okb _ _ _ _ b2 SB SZ)). specialize (OO3 O1).
  (* the values of the integer divisions at the point *)
  assert (PX1 : points c1 x) by (apply (proj2 (proj2 S2)); [rewrite NVC; exact Lx|exact Hx|exact PX]). apply (points_described c1 x PC1) in PX1; [|rewrite NVC1; exact Lx|exact Hx]. destruct PX1 as (e & Le & Se).
  assert (Lv : length (x ++ e) = (1 + total c1)%nat) by (rewrite app_length; unfold total; lia). assert (Hv : hd 0 (x ++ e) = 1) by (destruct x; [discriminate Lx|exact Hx]).
  assert (DC : divisions (b_div c1) (1 + nvar c1) (x ++ e)) by (apply PC1; assumption).
  assert (DB : divisions (b_div b2) (1 + nvar b2) (x ++ e)). { intros k Hk. fold (ndiv b2) in Hk. rewrite ND in Hk. apply (rowlike_division _ _ _ _ (B3 k Hk)). rewrite NV2, <- NVC1. apply DC. exact Hk. }
  assert (EX2 : explicit (nvar b2) (ndiv b2) (b_div b2)) by (rewrite ND, NV2, <- NVC1; apply (begins_explicit _ _ _ (b_div c1)); assumption).
  assert (EMP : b_empty b2 = true \/ b_empty b2 = false) by (destruct (b_empty b2); auto). destruct EMP as [E|EB2].
  { (* only marked empty if the original basic map is *)
    exfalso. clear - E1 E3 E F1 EB P1 PC1 OO2. assert (Q : b_empty b2 = b_empty b1); [|congruence]. unfold align_divs in E3. destruct (Nat.eqb _ _); [injection E3 as <-; reflexivity|]. destruct (negb _); [discriminate E3|]. destruct (align_loop (ndiv c1) 0 b1 c1) as [d| | |] eqn:EL; cbn [bind] in E3; try discriminate E3.
    assert (QL : forall m i a d, align_loop m i a c1 = Ok d -> b_empty d = b_empty a).
    { clear. induction m as [|m IH]; intros i a d; cbn [align_loop]; [intros [= <-]; reflexivity|]. destruct (Nat.ltb _ _); [discriminate|]. cbv zeta. destruct (find_from _ _ _ _ _) as [j|]; intros E; apply IH in E; rewrite E; destruct (Nat.eqb _ _); reflexivity. }
    assert (QO : forall f a i d, order_divs_loop f a i = Ok d -> b_empty d = b_empty a).
    { clear. induction f as [|f IH]; intros a i d; cbn [order_divs_loop]; [discriminate|]. destruct (Nat.leb _ _); [intros [= <-]; reflexivity|]. cbv zeta. destruct (_ =? 0); [apply IH|]. destruct (seq_first_non_zero _) as [[|p]|]; [discriminate| |apply IH]. intros E. apply IH in E. exact E. }
    rewrite (QO _ _ _ _ E3). apply (QL _ _ _ _ EL). }
  destruct (remove_shifted_ok (total b2) (underlying b2) (underlying c1) s FB EB2 FC E4) as (FS & QS).
  destruct (overlying_ok sid hash no_redundant tab fuel TAB s b2 b' FS P2 OO3 E5) as (P' & SZ' & _ & _ & QO). destruct SZ2 as (Z1 & Z2 & Z3). rewrite Z1, Z2, Z3 in SZ'. split; [split; assumption|].
  rewrite (QO x); [|rewrite NV2; exact Lx|exact Hx]. assert (QB : points b x <-> sat b2 (x ++ e)). { rewrite (proj2 (proj2 SB) x); [|rewrite NVB; exact Lx|exact Hx]. apply points_at; [exact P2|exact EX2|rewrite NV2; exact Lx|exact Hx|lia|exact DB]. }
  rewrite QB. assert (AT : at_point (total b2) (x ++ e)) by (split; [rewrite <- TT; exact Lv|exact Hv]). change (sat b2 (x ++ e)) with (sat (underlying b2) (x ++ e)). rewrite <- (QS (x ++ e) AT Se). split.
  - intros (e' & Le' & D' & S'). replace e with e'; [exact S'|]. apply (values_unique b2 x e' e EX2); [rewrite NV2; exact Lx|exact Le'|lia|exact D'|exact DB].
  - intros S'. exists e. split; [lia|]. split; [exact DB|exact S'].
Qed.
End Params.
