(** Proofs for Fourier-Motzkin elimination: one variable. *)
From Coq Require Import ZArith List Bool Lia Arith Permutation.
From Verif Require Import SeqModel SeqSpec SeqProofs MatModel BMapModel BMapSpec BMapSem BMapLists BMapNorm BMapGauss BMapGauss2 BMapOrder BDupModel BDupProofs BElimModel BElimSpec BElimSort BElimCols BElimProofs.
Import ListNotations.
Open Scope Z_scope.

(** ** normalization and duplicates as simplifications *)
Lemma normalize_shape b : same_space b (normalize_constraints b) /\ (b_empty b = false -> b_empty (normalize_constraints b) = true -> b_ineq (normalize_constraints b) = [] /\ b_div (normalize_constraints b) = []) /\
  (b_empty b = true -> b_empty (normalize_constraints b) = true).
Proof.
  unfold normalize_constraints, set_to_empty. destruct (normalize_eqs _ _ _) as [le|]; cbn [b_ineq b_rat set_eq b_empty b_eq].
  - destruct (normalize_ineqs _ _ _) as [li|]; cbn [b_ineq b_rat set_eq set_ineq b_empty b_eq]; [split; [repeat split|split; [congruence|auto]]|]. destruct (b_empty b && _) eqn:E; (split; [repeat split|split]); cbn; auto; intros; congruence.
  - destruct (b_empty b && _) eqn:E; (split; [repeat split|split]); cbn; auto. intros F. rewrite F in E. discriminate.
Qed.
Lemma normalize_marks b : b_empty b = false -> b_empty (normalize_constraints b) = true -> b_eq (normalize_constraints b) = [1 :: repeat 0 (nvar b)].
Proof.
  unfold normalize_constraints, set_to_empty. destruct (normalize_eqs _ _ _) as [le|]; cbn [b_ineq b_rat set_eq b_empty b_eq].
  - destruct (normalize_ineqs _ _ _) as [li|]; cbn [b_ineq b_rat set_eq set_ineq b_empty b_eq]; [congruence|]. destruct (b_empty b && _) eqn:E; intros; [rewrite H in E; discriminate|reflexivity].
  - destruct (b_empty b && _) eqn:E; intros F; [rewrite F in E; discriminate|reflexivity].
Qed.
Lemma tidy_ext X b b' : nvar b' = nvar b -> b_div b' = b_div b -> tidy X b -> tidy X b'.
Proof.
  intros NV D T. destruct T as [[AC AL]|O]; [left|right].
  - split; [apply (acyclic_ext b); assumption|]. unfold aloof, ndiv in *. rewrite D, NV. exact AL.
  - unfold ordered, ndiv in *. rewrite D, NV. exact O.
Qed.
Lemma ordered_nil b : b_div b = [] -> ordered b.
Proof. intros E k j Hk. unfold ndiv in Hk. rewrite E in Hk. cbn in Hk. lia. Qed.
Lemma normalize_simplified X b : wf b -> tidy X b -> b_empty b = false -> simplified X b (normalize_constraints b).
Proof.
  intros W T Em. destruct (normalize_constraints_ok b W) as (P & _ & D & W' & NV & RT). destruct (normalize_shape b) as (SS & NE & _).
  assert (DV : b_div (normalize_constraints b) = b_div b \/ b_div (normalize_constraints b) = []). { destruct (b_empty (normalize_constraints b)) eqn:E; [right; apply NE; auto|left; apply D; reflexivity]. }
  split; [exact SS|]. split; [exact W'|]. split; [destruct DV as [DV|DV]; [apply (tidy_ext X b); auto|right; apply ordered_nil; exact DV]|].
  split. { intros O. destruct DV as [DV|DV]; [unfold ordered, ndiv in *; rewrite DV, NV; exact O|apply ordered_nil; exact DV]. }
  split; [exact P|]. split; [intros c _; apply normalize_constraints_z|]. intros E. destruct (D E) as (_ & _ & D'). split; [unfold ndiv; rewrite D'; reflexivity|exact Em].
Qed.
Lemma opp_loop_div hash : forall fuel t b k p b' p', b_empty b = false -> opp_loop hash fuel false t b k p = Ok (b', p') ->
  (b_div b' = b_div b /\ b_empty b' = b_empty b) \/ (b_div b' = [] /\ b_empty b' = true).
Proof.
  induction fuel as [|fuel IH]; intros t b k p b' p' Em; cbn [opp_loop]; [discriminate|]. destruct (Nat.leb _ _); [intros [= <- <-]; auto|]. destruct (hash_index _ _ _ _ _) as [h| | |]; try discriminate.
  destruct (nth h t None); [|apply IH; exact Em]. cbn zeta. destruct (_ <? _); [apply IH; exact Em|]. destruct (_ =? 0); intros [= <- <-]; [left; split; reflexivity|]. right. unfold set_to_empty. rewrite Em. split; reflexivity.
Qed.
Lemma remove_dup_div hash b b' p : b_empty b = false -> remove_duplicate_constraints hash b false = Ok (b', p) ->
  (b_div b' = b_div b /\ b_empty b' = b_empty b) \/ (b_div b' = [] /\ b_empty b' = true).
Proof.
  intros Em. unfold remove_duplicate_constraints. destruct (Nat.leb _ _); [intros [= <- <-]; auto|]. cbn zeta. destruct (dup_loop _ _ _ _ _ _) as [[[t l] q]| | |]; try discriminate.
  intros E. apply opp_loop_div in E; [exact E|exact Em].
Qed.
Lemma dup_simplified X hash b : wf b -> tidy X b -> b_empty b = false \/ b_ineq b = [] -> exists b' p, remove_duplicate_constraints hash b false = Ok (b', p) /\ simplified X b b'.
Proof.
  intros W T [Em|Ne].
  2:{ exists b, false. unfold remove_duplicate_constraints. rewrite Ne. split; [reflexivity|apply simplified_refl; assumption]. }
  destruct (remove_duplicates_points hash b false W Em) as (b' & p & E & SS & W' & P & _ & ND & _). exists b', p. split; [exact E|]. pose proof (remove_dup_div hash b b' p Em E) as DV. destruct (same_space_nvar _ _ SS) as [NV _].
  split; [exact SS|]. split; [exact W'|]. split; [destruct DV as [[DV _]|[DV _]]; [apply (tidy_ext X b); auto|right; apply ordered_nil; exact DV]|].
  split. { intros O. destruct DV as [[DV _]|[DV _]]; [unfold ordered, ndiv in *; rewrite DV, NV; exact O|apply ordered_nil; exact DV]. }
  split; [intros q Lq Hq; apply P; [exact Lq|apply (admissible_pos _ _ Hq)]|]. split; [intros c _; apply (remove_dup_z hash c b b' p E)|]. intros F. split; [apply ND; exact F|exact Em].
Qed.

(** ** the combinations *)
Definition opposed (d : nat) (r s : list Z) : Prop := coef d r <> 0 /\ coef d s <> 0 /\ Z.sgn (coef d r) <> Z.sgn (coef d s).
Definition combined (d : nat) (r s : list Z) : list Z := fst (seq_elim r s (1 + d) 1).

Lemma fm_pairs_ok d l i : coef d (nth i l []) <> 0 -> forall m,
  (forall r, In r (fst (fm_pairs d l i m)) <-> exists j, (j < m)%nat /\ opposed d (nth i l []) (nth j l []) /\ r = combined d (nth i l []) (nth j l [])) /\
  match snd (fm_pairs d l i m) with
  | Some j => (j < m)%nat /\ (forall k, (j < k < m)%nat -> coef d (nth k l []) = 0)
  | None => forall k, (k < m)%nat -> coef d (nth k l []) = 0
  end.
Proof.
  intros Ni. induction m as [|m [IH1 IH2]]; cbn [fm_pairs].
  - cbn. split; [|intros; lia]. intros r. split; [intros []|]. intros (j & Hj & _). lia.
  - destruct (fm_pairs d l i m) as [new last]. cbn [fst snd] in *. destruct (Z.eqb_spec (coef d (nth m l [])) 0) as [Z0|Nz]; cbn [fst snd].
    + split.
      * intros r. rewrite IH1. split; intros (j & Hj & O & E); exists j; (split; [|auto]); [lia|]. destruct (Nat.eq_dec j m) as [->|]; [destruct O as (_ & O & _); contradiction|lia].
      * destruct last as [j|]; [destruct IH2 as [Hj IH2]; split; [lia|]|]; intros k Hk; (destruct (Nat.eq_dec k m) as [->|]; [exact Z0|apply IH2; lia]).
    + assert (L : (m < S m)%nat /\ forall k, (m < k < S m)%nat -> coef d (nth k l []) = 0) by (split; [lia|intros; lia]).
      destruct (Z.eqb_spec (Z.sgn (coef d (nth i l []))) (Z.sgn (coef d (nth m l [])))) as [Sg|Sg]; cbn [fst snd]; (split; [|exact L]); intros r.
      * rewrite IH1. split; intros (j & Hj & O & E); exists j; (split; [|auto]); [lia|]. destruct (Nat.eq_dec j m) as [->|]; [destruct O as (_ & _ & O); contradiction|lia].
      * rewrite in_app_iff, IH1. cbn. split.
        -- intros [(j & Hj & O & E)|[<-|[]]]; [exists j; split; [lia|auto]|]. exists m. split; [lia|]. split; [repeat split; assumption|reflexivity].
        -- intros (j & Hj & O & E). destruct (Nat.eq_dec j m) as [->|]; [right; left; symmetry; exact E|left; exists j; split; [lia|auto]].
Qed.

Lemma combined_ok d n r s : length r = n -> length s = n -> (1 + d < n)%nat -> opposed d r s ->
  length (combined d r s) = n /\ coef d (combined d r s) = 0 /\ exists a b, 0 < a /\ 0 < b /\ a * coef d r + b * coef d s = 0 /\ forall v, dot (combined d r s) v = a * dot r v + b * dot s v.
Proof.
  intros Lr Ls Hd (Nr & Ns & Sg). destruct (elim_ok r s (1 + d) 1 ltac:(lia) ltac:(lia) Ns) as (a & b & Ha & C & _ & Z0 & _). fold (combined d r s) in C, Z0.
  assert (CC : a * coef d r + b * coef d s = 0). { destruct C as [_ C]. rewrite C in Z0 by lia. exact Z0. }
  split; [destruct C as [C _]; lia|]. split; [exact Z0|]. exists a, b. split; [exact Ha|]. split.
  - unfold coef in *. set (x := nth (1 + d) r 0) in *. set (y := nth (1 + d) s 0) in *. clearbody x y. clear - CC Ha Nr Ns Sg. destruct (Z.lt_trichotomy x 0) as [X|[X|X]]; destruct (Z.lt_trichotomy y 0) as [Y|[Y|Y]]; try lia; nia.
  - split; [exact CC|]. intros v. apply combination_dot; [lia|exact C].
Qed.

Lemma fm_loop_ok d n : (1 + d < n)%nat -> forall fuel l m, rows_of n l -> (m <= length l)%nat -> (m < fuel)%nat -> (forall k, (m <= k < length l)%nat -> coef d (nth k l []) = 0) ->
  exists l', fm_loop fuel d l m = Ok l' /\ rows_of n l' /\ Forall (fun r => coef d r = 0) l' /\
   forall r, In r l' <-> (In r l /\ coef d r = 0) \/ exists i j, (j < i < m)%nat /\ opposed d (nth i l []) (nth j l []) /\ r = combined d (nth i l []) (nth j l []).
Proof.
  intros Hd. induction fuel as [|fuel IH]; intros l m R Hm F Z0; [lia|]. cbn [fm_loop]. destruct m as [|i].
  { exists l. split; [reflexivity|]. split; [exact R|]. assert (A : Forall (fun r => coef d r = 0) l) by (apply (Forall_nth_iff _ _ []); intros k Hk; apply Z0; lia). split; [exact A|].
    intros r. split; [|intros [[H _]|(i & j & H & _)]; [exact H|lia]]. intros H. left. split; [exact H|]. apply (proj1 (Forall_forall _ _) A). exact H. }
  destruct (Z.eqb_spec (coef d (nth i l [])) 0) as [Ci|Ci].
  - destruct (IH l i R ltac:(lia) ltac:(lia)) as (l' & E & R' & Zr & H); [intros k Hk; destruct (Nat.eq_dec k i) as [->|]; [exact Ci|apply Z0; lia]|]. exists l'. split; [exact E|]. split; [exact R'|]. split; [exact Zr|].
    intros r. rewrite H. apply or_iff_compat_l. split; intros (a & b & Hab & O & Er); exists a, b; (split; [|auto]); [lia|]. destruct (Nat.eq_dec a i) as [->|]; [destruct O as [O _]; contradiction|lia].
  - destruct (fm_pairs_ok d l i Ci i) as [NW LS]. destruct (fm_pairs d l i i) as [new last]. cbn [fst snd] in NW, LS. set (l1 := drop_swap (l ++ new) i).
    assert (Li : (i < length (l ++ new))%nat) by (rewrite app_length; lia). pose proof (drop_swap_perm (l ++ new) i Li) as P. fold l1 in P. rewrite app_nth1 in P by lia.
    assert (RN : rows_of n new). { apply Forall_forall. intros r Hr. apply NW in Hr as (j & Hj & O & ->). apply combined_ok; auto; apply (rows_nth n l); auto; lia. }
    assert (ZN : Forall (fun r => coef d r = 0) new). { apply Forall_forall. intros r Hr. apply NW in Hr as (j & Hj & O & ->). apply (combined_ok d n); auto; apply (rows_nth n l); auto; lia. }
    assert (R1 : rows_of n l1). { assert (X : rows_of n (l ++ new)) by (apply Forall_app; split; assumption). apply (Forall_perm _ _ _ (Permutation_sym P)) in X. inversion X; assumption. }
    assert (N1 : forall j, (j < i)%nat -> nth j l1 [] = nth j l []).
    { intros j Hj. unfold l1. rewrite nth_drop_swap by lia. destruct (Nat.eqb_spec j i); [lia|]. apply app_nth1. lia. }
    assert (L1 : length l1 = (length l + length new - 1)%nat) by (unfold l1; rewrite drop_swap_length, app_length; reflexivity).
    set (m' := match last with Some j => S j | None => O end).
    assert (Hm' : (m' <= i)%nat) by (unfold m'; destruct last; lia). assert (Zm : forall k, (m' <= k < i)%nat -> coef d (nth k l []) = 0) by (unfold m'; intros k Hk; destruct last as [j|]; [apply LS; lia|apply LS; lia]).
    assert (ZA : forall k, (S i <= k < length (l ++ new))%nat -> coef d (nth k (l ++ new) []) = 0).
    { intros k Hk. rewrite app_length in Hk. destruct (Nat.lt_ge_cases k (length l)) as [L|G]; [rewrite app_nth1 by lia; apply Z0; lia|]. rewrite app_nth2 by lia. apply (proj1 (Forall_nth_iff _ _ []) ZN). lia. }
    destruct (IH l1 m' R1 ltac:(lia) ltac:(lia)) as (l' & E & R' & Zr & H).
    { intros k Hk. destruct (Nat.lt_ge_cases k i) as [L|G]; [rewrite N1 by exact L; apply Zm; lia|]. unfold l1. rewrite nth_drop_swap by (rewrite ?app_length; lia). destruct (Nat.eqb_spec k i) as [->|].
      - apply ZA. rewrite app_length. lia.
      - apply ZA. rewrite app_length. lia. }
    exists l'. split; [exact E|]. split; [exact R'|]. split; [exact Zr|]. intros r. rewrite H.
    assert (I1 : (In r l1 /\ coef d r = 0) <-> (In r l /\ coef d r = 0) \/ In r new).
    { split.
      - intros [A B]. assert (In r (l ++ new)) as X by (apply (Permutation_in r P); right; exact A). apply in_app_iff in X. destruct X; [left; auto|right; assumption].
      - intros A. assert (Zc : coef d r = 0) by (destruct A as [[_ A]|A]; [exact A|apply (proj1 (Forall_forall _ _) ZN); exact A]). split; [|exact Zc].
        assert (X : In r (l ++ new)) by (apply in_app_iff; destruct A as [[A _]|A]; auto). apply (Permutation_in r (Permutation_sym P)) in X. destruct X as [<-|X]; [contradiction|exact X]. }
    rewrite I1, NW. split.
    + intros [[A|(j & Hj & O & Er)]|(a & b & Hab & O & Er)]; [left; exact A|right; exists i, j; split; [lia|auto]|]. right. exists a, b. rewrite !N1 in * by lia. split; [lia|auto].
    + intros [A|(a & b & Hab & O & Er)]; [left; left; exact A|]. destruct (Nat.eq_dec a i) as [->|Ne]; [left; right; exists b; split; [lia|auto]|]. right. exists a, b. rewrite !N1 by lia. split; [|auto].
      split; [lia|]. destruct (Nat.lt_ge_cases a m') as [|G]; [assumption|]. destruct O as [O _]. exfalso. apply O. apply Zm. lia.
Qed.

(** ** values *)
Lemma dot_scale r k v : dot r (scale k v) = k * dot r v.
Proof. unfold scale. revert v. induction r as [|x r IH]; intros [|y v]; cbn; try ring. rewrite IH. ring. Qed.
Lemma nth_scale k v i : nth i (scale k v) 0 = k * nth i v 0.
Proof. unfold scale. rewrite <- (map_nth (Z.mul k)). f_equal. ring. Qed.
Lemma dot_upd r v i t : (i < length v)%nat -> dot r (zupd v i t) = dot r v + (t - nth i v 0) * nth i r 0.
Proof. intros H. rewrite (dot_comm r), dot_zupd by exact H. rewrite (dot_comm v). ring. Qed.
Lemma scale_length k v : length (scale k v) = length v. Proof. apply map_length. Qed.

(** the tightest bound *)
Lemma tightest (f a : list Z -> Z) (l : list (list Z)) : l <> [] -> (forall r, In r l -> 0 < a r) -> exists r0, In r0 l /\ forall r, In r l -> f r0 * a r <= f r * a r0.
Proof.
  induction l as [|x l IH]; intros N P; [congruence|]. destruct l as [|y l].
  - exists x. split; [left; reflexivity|]. intros r [->|[]]. lia.
  - destruct IH as (r0 & I0 & H0); [discriminate|intros r Hr; apply P; right; exact Hr|]. pose proof (P r0 (or_intror I0)) as A0. pose proof (P x (or_introl eq_refl)) as AX.
    destruct (Z.le_gt_cases (f r0 * a x) (f x * a r0)) as [L|G].
    + exists r0. split; [right; exact I0|]. intros r [->|Hr]; [exact L|apply H0; exact Hr].
    + exists x. split; [left; reflexivity|]. intros r [->|Hr]; [lia|]. specialize (H0 r Hr). pose proof (P r (or_intror Hr)) as AR.
      assert (f x * a r * a r0 <= f r * a x * a r0); [|nia]. nia.
Qed.

(** Fourier-Motzkin: the combinations are satisfied iff a value can be chosen *)
Lemma fm_exists_bound d n (l l' : list (list Z)) v : (1 + d < n)%nat -> length v = n -> rows_of n l ->
  (forall r, In r l -> coef d r = 0 -> In r l') ->
  (forall i j, (j < i < length l)%nat -> opposed d (nth i l []) (nth j l []) -> In (combined d (nth i l []) (nth j l [])) l') ->
  Forall (nonneg_on v) l' -> exists k t, 0 < k /\ (k = 1 \/ exists r, In r l /\ k = Z.abs (coef d r)) /\ Forall (nonneg_on (zupd (scale k v) (1 + d) t)) l.
Proof.
  intros Hd Lv R H1 H2 H. set (f := fun r => dot r v - nth (1 + d) v 0 * coef d r).
  assert (VAL : forall r k t, dot r (zupd (scale k v) (1 + d) t) = k * f r + t * coef d r).
  { intros r k t. rewrite dot_upd by (rewrite scale_length; lia). rewrite dot_scale, nth_scale. unfold f, coef. ring. }
  assert (ZR : forall r, In r l -> coef d r = 0 -> 0 <= f r). { intros r Hr Hc. unfold f. rewrite Hc. specialize (proj1 (Forall_forall _ _) H r (H1 r Hr Hc)). unfold nonneg_on. lia. }
  (* opposed pairs *)
  assert (OP : forall r s, In r l -> In s l -> 0 < coef d r -> coef d s < 0 -> 0 <= f s * coef d r - f r * coef d s).
  { intros r s Hr Hs Pr Ps. destruct (In_nth _ r [] Hr) as (i & Hi & Ei). destruct (In_nth _ s [] Hs) as (j & Hj & Ej).
    assert (CASE : forall x y, In (combined d x y) l' -> length x = n -> length y = n -> opposed d x y -> exists a b, 0 < a /\ 0 < b /\ a * coef d x + b * coef d y = 0 /\ 0 <= a * f x + b * f y).
    { intros x y I Lx Ly O. destruct (combined_ok d n x y Lx Ly Hd O) as (_ & _ & a & b & Ha & Hb & E & D). exists a, b. split; [exact Ha|]. split; [exact Hb|]. split; [exact E|].
      specialize (proj1 (Forall_forall _ _) H _ I). unfold nonneg_on. rewrite D. unfold f. intros Q. replace (a * (dot x v - nth (1 + d) v 0 * coef d x) + b * (dot y v - nth (1 + d) v 0 * coef d y)) with (a * dot x v + b * dot y v - nth (1 + d) v 0 * (a * coef d x + b * coef d y)) by ring. rewrite E. lia. }
    pose proof (rows_nth _ _ i R Hi) as L1. pose proof (rows_nth _ _ j R Hj) as L2. rewrite Ei in L1. rewrite Ej in L2.
    assert (ij : i <> j) by (intros ->; rewrite Ei in Ej; subst s; lia). destruct (Nat.lt_ge_cases j i) as [L|G].
    - assert (O : opposed d r s) by (repeat split; lia). destruct (CASE r s) as (a & b & Ha & Hb & E & Q); [rewrite <- Ei, <- Ej; apply H2; [lia|rewrite Ei, Ej; exact O]|exact L1|exact L2|exact O|].
      assert (a * coef d r = b * - coef d s) by lia. assert (0 <= b * (f s * coef d r - f r * coef d s)); [|nia].
      replace (b * (f s * coef d r - f r * coef d s)) with (coef d r * (b * f s) + f r * (b * - coef d s)) by ring. rewrite <- H0. nia.
    - assert (O : opposed d s r) by (repeat split; lia). destruct (CASE s r) as (a & b & Ha & Hb & E & Q); [rewrite <- Ei, <- Ej; apply H2; [lia|rewrite Ei, Ej; exact O]|exact L2|exact L1|exact O|].
      assert (b * coef d r = a * - coef d s) by lia. assert (0 <= a * (f s * coef d r - f r * coef d s)); [|nia].
      replace (a * (f s * coef d r - f r * coef d s)) with (coef d r * (a * f s) + f r * (a * - coef d s)) by ring. rewrite <- H0. nia. }
  destruct (filter (fun r => 0 <? coef d r) l) as [|x lo] eqn:EL.
  - (* no lower bounds *)
    assert (NL : forall r, In r l -> coef d r <= 0). { intros r Hr. destruct (Z.ltb_spec 0 (coef d r)) as [L|]; [|assumption]. assert (In r (filter (fun r => 0 <? coef d r) l)) by (apply filter_In; split; [exact Hr|apply Z.ltb_lt; exact L]). rewrite EL in H0. destruct H0. }
    destruct (filter (fun r => coef d r <? 0) l) as [|x up] eqn:EU.
    + exists 1, 0. split; [lia|]. split; [left; reflexivity|]. apply Forall_forall. intros r Hr. unfold nonneg_on. rewrite VAL. assert (coef d r = 0); [|specialize (ZR r Hr H0); lia]. specialize (NL r Hr). destruct (Z.ltb_spec (coef d r) 0) as [L|]; [|lia].
      assert (In r (filter (fun r => coef d r <? 0) l)) by (apply filter_In; split; [exact Hr|apply Z.ltb_lt; exact L]). rewrite EU in H0. destruct H0.
    + destruct (tightest f (fun r => - coef d r) (filter (fun r => coef d r <? 0) l)) as (r0 & I0 & T0); [rewrite EU; discriminate|intros r Hr; apply filter_In in Hr as [_ Hr]; apply Z.ltb_lt in Hr; lia|].
      apply filter_In in I0 as [I0 P0]. apply Z.ltb_lt in P0. exists (- coef d r0), (f r0). split; [lia|]. split; [right; exists r0; split; [exact I0|lia]|]. apply Forall_forall. intros r Hr. unfold nonneg_on. rewrite VAL.
      destruct (Z.ltb_spec (coef d r) 0) as [L|G].
      * specialize (T0 r ltac:(apply filter_In; split; [exact Hr|apply Z.ltb_lt; exact L])). cbn beta in T0. lia.
      * assert (C0 : coef d r = 0) by (specialize (NL r Hr); lia). rewrite C0. specialize (ZR r Hr C0). nia.
  - destruct (tightest f (coef d) (filter (fun r => 0 <? coef d r) l)) as (r0 & I0 & T0); [rewrite EL; discriminate|intros r Hr; apply filter_In in Hr as [_ Hr]; apply Z.ltb_lt in Hr; lia|].
    apply filter_In in I0 as [I0 P0]. apply Z.ltb_lt in P0. exists (coef d r0), (- f r0). split; [lia|]. split; [right; exists r0; split; [exact I0|lia]|]. apply Forall_forall. intros r Hr. unfold nonneg_on. rewrite VAL.
    destruct (Z.lt_trichotomy (coef d r) 0) as [L|[C0|G]].
    + specialize (OP r0 r I0 Hr P0 L). lia.
    + rewrite C0. specialize (ZR r Hr C0). nia.
    + specialize (T0 r ltac:(apply filter_In; split; [exact Hr|apply Z.ltb_lt; exact G])). lia.
Qed.
Lemma fm_exists d n (l l' : list (list Z)) v : (1 + d < n)%nat -> length v = n -> rows_of n l ->
  (forall r, In r l -> coef d r = 0 -> In r l') ->
  (forall i j, (j < i < length l)%nat -> opposed d (nth i l []) (nth j l []) -> In (combined d (nth i l []) (nth j l [])) l') ->
  Forall (nonneg_on v) l' -> exists k t, 0 < k /\ Forall (nonneg_on (zupd (scale k v) (1 + d) t)) l.
Proof. intros A B C D E F. destruct (fm_exists_bound d n l l' v A B C D E F) as (k & t & K & _ & H). exists k, t. auto. Qed.
Lemma upd_zero d r v t : coef d r = 0 -> (1 + d < length v)%nat -> dot r (zupd v (1 + d) t) = dot r v.
Proof. intros C L. rewrite dot_upd by exact L. unfold coef in C. rewrite C. ring. Qed.
