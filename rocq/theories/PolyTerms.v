(** Terms and degrees of polynomials; affine polynomials; the order of polynomials. *)
From Coq Require Import ZArith List Bool QArith Arith Lia Lqa Setoid Morphisms ZifyBool.
From Verif Require Import SeqModel MatModel ValModel BMapModel BMapLists LocalModel PolyModel PolySpec PolyBase PolyArith PolyOps PolyOps2 PolyUniq.
Import ListNotations.
Open Scope Q_scope.

(** ** terms *)
Fixpoint terms_of (p : poly) (pow : list nat) : list term :=
  match p with
  | Cst n d => if p_is_zero p then [] else [(n, d, pow)]
  | Rec v l => (fix go i l := match l with [] => [] | a :: t => terms_of a (lset pow v i) ++ go (S i) t end) O l
  end.
Fixpoint terms_from (v i : nat) (l : list poly) (pow : list nat) : list term :=
  match l with [] => [] | a :: t => terms_of a (lset pow v i) ++ terms_from v (S i) t pow end.
Lemma terms_rec v l pow : terms_of (Rec v l) pow = terms_from v 0 l pow.
Proof. cbn [terms_of]. generalize 0%nat. induction l as [|a t IH]; intros i; cbn; [reflexivity|]. f_equal. apply IH. Qed.
Lemma lset_length {A} (l : list A) i a : length (lset l i a) = length l.
Proof. revert i. induction l as [|b t IH]; intros [|i]; cbn; auto. Qed.
Lemma lset_nth {A} (l : list A) i j a d : nth j (lset l i a) d = if Nat.eqb j i && Nat.ltb i (length l) then a else nth j l d.
Proof.
  revert i j. induction l as [|b t IH]; intros i j; [destruct i, j; cbn; rewrite ?andb_false_r; reflexivity|]. destruct i, j; cbn; try reflexivity. rewrite IH. reflexivity.
Qed.
Lemma lset_lset {A} (l : list A) i a b : lset (lset l i a) i b = lset l i b.
Proof. revert i. induction l as [|c t IH]; intros [|i]; cbn; try reflexivity. now rewrite IH. Qed.
Lemma lset_id {A} (l : list A) i d : (i < length l)%nat -> lset l i (nth i l d) = l.
Proof. revert i. induction l as [|c t IH]; intros [|i] H; cbn in *; try lia; try reflexivity. rewrite IH by lia. reflexivity. Qed.
Lemma zero_below_set b v i pow : zero_below b pow -> (v < b)%nat -> zero_below v (lset pow v i).
Proof. intros H Hv j Hj. rewrite lset_nth. destruct (Nat.eqb_spec j v); [lia|]. cbn. apply H. lia. Qed.
Lemma foreach_ok : forall p b pow, ordered b p -> (b <= length pow)%nat -> zero_below b pow -> foreach_term p pow = Ok (terms_of p pow, pow).
Proof.
  induction p as [n d|v l IH] using poly_ind'; intros b pow O Hb Hz.
  - cbn [foreach_term terms_of]. destruct (p_is_zero (Cst n d)) eqn:Z; [reflexivity|]. pose proof (ordered_finite _ _ O) as Fi. rewrite (finite_not_nan _ Fi). destruct (finite_not_inf _ Fi) as [-> ->]. reflexivity.
  - apply ordered_rec in O as (Hv & Hn & Hl & F). rewrite terms_rec. cbn [foreach_term p_is_zero p_is_nan p_is_infty p_is_neginfty orb].
    assert (X : forall t i w, Forall (ordered v) t -> Forall (fun p => forall b pow, ordered b p -> (b <= length pow)%nat -> zero_below b pow -> foreach_term p pow = Ok (terms_of p pow, pow)) t ->
      lset w v 0%nat = pow -> length w = length pow ->
      exists w', (fix go i l pow := match l with [] => Ok ([], pow) | a :: t => LocalModel.bind (foreach_term a (lset pow v i)) (fun '(ta, pow) => LocalModel.bind (go (S i) t pow) (fun '(tb, pow) => Ok (ta ++ tb, pow))) end) i t w
        = Ok (terms_from v i t pow, w') /\ lset w' v 0%nat = pow).
    { induction t as [|a t IHt]; intros i w Ft It Ew Lw; [exists w; auto|]. inversion Ft; inversion It; subst a t.
      assert (Ei : lset w v i = lset pow v i) by (rewrite <- Ew, lset_lset; reflexivity). rewrite Ei.
      match goal with H : forall b pow, ordered b ?a -> _, O : ordered v ?a |- _ => rewrite (H v (lset pow v i) O ltac:(rewrite lset_length; lia) (zero_below_set b v i pow Hz Hv)) end. cbn [LocalModel.bind].
      destruct (IHt (S i) (lset pow v i)) as (w' & A & B); [assumption|assumption| |apply lset_length|].
      { rewrite lset_lset. etransitivity; [|apply (lset_id pow v 0%nat); lia]. rewrite (Hz v Hv). reflexivity. }
      rewrite A. cbn [LocalModel.bind]. exists w'. split; [reflexivity|exact B]. }
    destruct (X l 0%nat pow F IH) as (w' & A & B); [etransitivity; [|apply (lset_id pow v 0%nat); lia]; rewrite (Hz v Hv); reflexivity|reflexivity|].
    rewrite A. cbn [LocalModel.bind]. rewrite B. reflexivity.
Qed.
(** the value of a term *)
Lemma tsum_app x l m : tsum x (l ++ m) == tsum x l + tsum x m.
Proof. induction l as [|t u IH]; cbn; [ring|]. rewrite IH. ring. Qed.
Lemma mono_set x i : forall pow v s, (v < length pow)%nat -> nth v pow 0%nat = 0%nat -> mono x s (lset pow v i) == pw (x (s + v)%nat) i * mono x s pow.
Proof.
  induction pow as [|k t IH]; intros v s Hv Hz; [cbn in Hv; lia|]. destruct v as [|v]; cbn [lset mono].
  - cbn in Hz. subst k. rewrite Nat.add_0_r. cbn. ring.
  - rewrite IH by (cbn in *; auto; lia). replace (S s + v)%nat with (s + S v)%nat by lia. ring.
Qed.
Lemma terms_val x : forall p b pow, ordered b p -> (b <= length pow)%nat -> zero_below b pow -> tsum x (terms_of p pow) == pval x p * mono x 0 pow.
Proof.
  induction p as [n d|v l IH] using poly_ind'; intros b pow O Hb Hz.
  - cbn [terms_of]. destruct (p_is_zero (Cst n d)) eqn:Z; [rewrite (is_zero_val x _ Z); cbn; ring|]. cbn [tsum tval pval]. ring.
  - apply ordered_rec in O as (Hv & _ & _ & F). rewrite terms_rec, pval_rec.
    assert (X : forall t i, Forall (ordered v) t -> Forall (fun p => forall b pow, ordered b p -> (b <= length pow)%nat -> zero_below b pow -> tsum x (terms_of p pow) == pval x p * mono x 0 pow) t ->
      tsum x (terms_from v i t pow) == pw (x v) i * horner (x v) (vals x t) * mono x 0 pow).
    { induction t as [|a t IHt]; intros i Ft It; [cbn; ring|]. inversion Ft; inversion It; subst. cbn [terms_from vals map horner]. rewrite tsum_app, IHt by assumption.
      rewrite (H5 v (lset pow v i) H1 ltac:(rewrite lset_length; lia) ltac:(apply (zero_below_set b); auto)). rewrite mono_set by (auto; lia). cbn [Nat.add pw]. unfold vals. ring. }
    rewrite (X l 0%nat F IH). cbn [pw]. ring.
Qed.
(** all terms agree with [pow] above [b] *)
Lemma terms_above : forall p b pow t, ordered b p -> (b <= length pow)%nat -> List.In t (terms_of p pow) -> length (snd t) = length pow /\ (forall i, (b <= i)%nat -> nth i (snd t) 0%nat = nth i pow 0%nat) /\ fst (fst t) <> 0%Z /\ (0 < snd (fst t))%Z.
Proof.
  induction p as [n d|v l IH] using poly_ind'; intros b pow t O Hb Ht.
  - cbn [terms_of] in Ht. destruct (p_is_zero (Cst n d)) eqn:Z; [destruct Ht|]. destruct Ht as [<-|[]]. cbn [snd fst]. split; [reflexivity|]. split; [auto|]. split; [|exact O]. rewrite cst_zero in Z by exact O. lia.
  - apply ordered_rec in O as (Hv & _ & _ & F). rewrite terms_rec in Ht. remember 0%nat as i0 eqn:E0 in Ht. clear E0. revert i0 Ht. induction l as [|a u IHl]; intros i Ht; [destruct Ht|]. inversion IH; inversion F; subst. cbn [terms_from] in Ht.
    apply in_app_or in Ht as [Ht|Ht]; [|eapply IHl; eauto]. destruct (H1 v (lset pow v i) t H5) as (A & B & C); [rewrite lset_length; lia|exact Ht|]. rewrite lset_length in A. split; [exact A|]. split; [|exact C].
    intros j Hj. rewrite B by lia. rewrite lset_nth. destruct (Nat.eqb_spec j v); [lia|reflexivity].
Qed.
Lemma terms_at v l pow t : forall i, Forall (ordered v) l -> (v < length pow)%nat -> List.In t (terms_from v i l pow) -> exists k a, nth_error l k = Some a /\ List.In t (terms_of a (lset pow v (i + k)%nat)) /\ nth v (snd t) 0%nat = (i + k)%nat.
Proof.
  induction l as [|a u IH]; intros i F Hv Ht; [destruct Ht|]. inversion F; subst. cbn [terms_from] in Ht. apply in_app_or in Ht as [Ht|Ht].
  - exists 0%nat, a. rewrite Nat.add_0_r. split; [reflexivity|]. split; [exact Ht|]. destruct (terms_above a v (lset pow v i) t) as (_ & B & _); [assumption|rewrite lset_length; lia|exact Ht|]. rewrite B by lia. rewrite lset_nth, Nat.eqb_refl, (proj2 (Nat.ltb_lt _ _) Hv). reflexivity.
  - destruct (IH (S i) H2 Hv Ht) as (k & b & A & B & C). exists (S k), b. rewrite Nat.add_succ_r. split; [exact A|]. split; [exact B|exact C].
Qed.
Lemma NoDup_app' {A} (l1 l2 : list A) : NoDup l1 -> NoDup l2 -> (forall y, List.In y l1 -> ~ List.In y l2) -> NoDup (l1 ++ l2).
Proof.
  intros N1 N2 D. induction N1 as [|y l1 Hy N1 IHN]; [exact N2|]. cbn. constructor.
  - rewrite in_app_iff. intros [Q|Q]; [tauto|]. apply (D y); [left; reflexivity|exact Q].
  - apply IHN. intros z Hz. apply D. right. exact Hz.
Qed.
Lemma terms_nodup : forall p b pow, ordered b p -> (b <= length pow)%nat -> NoDup (map snd (terms_of p pow)).
Proof.
  induction p as [n d|v l IH] using poly_ind'; intros b pow O Hb.
  - cbn [terms_of]. destruct (p_is_zero _); cbn; repeat constructor; auto.
  - apply ordered_rec in O as (Hv & _ & _ & F). rewrite terms_rec. generalize 0%nat. induction l as [|a u IHl]; intros i; [constructor|]. inversion IH; inversion F; subst. cbn [terms_from]. rewrite map_app.
    assert (N1 := H1 v (lset pow v i) H5 ltac:(rewrite lset_length; lia)). assert (N2 := IHl H2 H6 (S i)).
    assert (D : forall y, List.In y (map snd (terms_of a (lset pow v i))) -> ~ List.In y (map snd (terms_from v (S i) u pow))).
    { intros y Hy Hy'. apply in_map_iff in Hy as (t & <- & Ht). apply in_map_iff in Hy' as (t' & E & Ht'). destruct (terms_at v u pow t' (S i) H6 ltac:(lia) Ht') as (k & c & _ & _ & C).
      destruct (terms_above a v (lset pow v i) t H5 ltac:(rewrite lset_length; lia) Ht) as (_ & B & _). specialize (B v ltac:(lia)). rewrite lset_nth, Nat.eqb_refl, (proj2 (Nat.ltb_lt _ _) (Nat.lt_le_trans _ _ _ Hv Hb)) in B. cbn in B. rewrite E in C. lia. }
    apply NoDup_app'; assumption.
Qed.

(** ** degree *)
Lemma tdeg_set first last i : forall pow v s, (v < length pow)%nat -> nth v pow 0%nat = 0%nat ->
  tdeg first last s (lset pow v i) = (tdeg first last s pow + if Nat.leb first (s + v) && Nat.ltb (s + v) last then i else 0)%nat.
Proof.
  induction pow as [|k t IH]; intros v s Hv Hz; [cbn in Hv; lia|]. destruct v as [|v]; cbn [lset tdeg].
  - cbn in Hz. subst k. rewrite Nat.add_0_r. destruct (_ && _); lia.
  - rewrite IH by (cbn in *; auto; lia). replace (S s + v)%nat with (s + S v)%nat by lia. lia.
Qed.
Lemma tdeg_agree first last : forall pow pow' s, length pow = length pow' -> (forall i, (first <= s + i)%nat -> nth i pow 0%nat = nth i pow' 0%nat) -> tdeg first last s pow = tdeg first last s pow'.
Proof.
  induction pow as [|k t IH]; intros [|k' t'] s L H; try (cbn in L; lia). cbn [tdeg]. rewrite (IH t' (S s)); [|cbn in L; lia|].
  - destruct (Nat.leb_spec first s) as [C|C]; [|reflexivity]. specialize (H 0%nat ltac:(lia)). cbn in H. subst. reflexivity.
  - intros i Hi. apply (H (S i)). lia.
Qed.
Lemma terms_nonempty : forall p b pow, ordered b p -> p_is_zero p = false -> exists t, List.In t (terms_of p pow).
Proof.
  induction p as [n d|v l IH] using poly_ind'; intros b pow O Z.
  - exists (n, d, pow). cbn [terms_of]. rewrite Z. left. reflexivity.
  - apply ordered_rec in O as (Hv & Hn & Hl & F). rewrite terms_rec. assert (L : l <> []) by (destruct l; [cbn in Hn; lia|discriminate]). clear Hn.
    generalize 0%nat. induction l as [|a u IHl]; intros i; [congruence|]. inversion IH; inversion F; subst. destruct u as [|c w].
    + destruct (H1 v (lset pow v i) H5 Hl) as (t & Ht). exists t. cbn [terms_from]. apply in_or_app. left. exact Ht.
    + assert (X : exists t, List.In t (terms_from v (S i) (c :: w) pow)) by (apply IHl; try assumption; discriminate). destruct X as (t & Ht). exists t. cbn [terms_from]. apply in_or_app. right. exact Ht.
Qed.
(** the degree of [p] is the maximum of the degrees of its terms *)
Lemma degree_ok first last : forall p b pow, ordered b p -> (b <= length pow)%nat -> zero_below b pow -> p_is_zero p = false ->
  (0 <= poly_degree p first last)%Z /\
  (forall t, List.In t (terms_of p pow) -> (Z.of_nat (tdeg first last 0 (snd t)) <= poly_degree p first last + Z.of_nat (tdeg first last 0 pow))%Z) /\
  (exists t, List.In t (terms_of p pow) /\ Z.of_nat (tdeg first last 0 (snd t)) = (poly_degree p first last + Z.of_nat (tdeg first last 0 pow))%Z).
Proof.
  induction p as [n d|v l IH] using poly_ind'; intros b pow O Hb Hz Z.
  - cbn [poly_degree terms_of]. rewrite Z. split; [lia|]. split; [intros t [<-|[]]; cbn [snd]; lia|]. exists (n, d, pow). split; [left; reflexivity|]. cbn [snd]. lia.
  - pose proof O as O'. apply ordered_rec in O as (Hv & Hn & Hl & F). cbn [poly_degree p_is_zero]. destruct (Nat.ltb_spec v first) as [L|L].
    { assert (E : forall t, List.In t (terms_of (Rec v l) pow) -> tdeg first last 0 (snd t) = tdeg first last 0 pow).
      { intros t Ht. destruct (terms_above (Rec v l) (S v) pow t) as (A & B & _); [apply ordered_rec; auto|lia|exact Ht|]. apply tdeg_agree; [exact A|]. intros i Hi. apply B. lia. }
      split; [lia|]. split; [intros t Ht; rewrite (E t Ht); lia|]. destruct (terms_nonempty (Rec v l) b pow O' eq_refl) as (t & Ht). exists t. split; [exact Ht|]. rewrite (E t Ht). lia. }
    rewrite terms_rec.
    assert (X : forall u i deg, Forall (ordered v) u -> Forall (fun p => forall b pow, ordered b p -> (b <= length pow)%nat -> zero_below b pow -> p_is_zero p = false ->
        (0 <= poly_degree p first last)%Z /\ (forall t, List.In t (terms_of p pow) -> (Z.of_nat (tdeg first last 0 (snd t)) <= poly_degree p first last + Z.of_nat (tdeg first last 0 pow))%Z) /\
        (exists t, List.In t (terms_of p pow) /\ Z.of_nat (tdeg first last 0 (snd t)) = (poly_degree p first last + Z.of_nat (tdeg first last 0 pow))%Z)) u ->
      let r := (fix go i l deg := match l with [] => deg | a :: t => if p_is_zero a then go (i + 1)%Z t deg else
            let d := poly_degree a first last in let d := if Nat.ltb v last then (d + i)%Z else d in go (i + 1)%Z t (if (deg <? d)%Z then d else deg) end) (Z.of_nat i) u deg in
      (deg <= r)%Z /\ (forall t, List.In t (terms_from v i u pow) -> (Z.of_nat (tdeg first last 0 (snd t)) <= r + Z.of_nat (tdeg first last 0 pow))%Z) /\
      ((exists t, List.In t (terms_from v i u pow) /\ Z.of_nat (tdeg first last 0 (snd t)) = (r + Z.of_nat (tdeg first last 0 pow))%Z) \/ r = deg)).
    { induction u as [|a u IHu]; intros i deg Fu Iu.
      - cbn. split; [lia|]. split; [intros t []|auto].
      - inversion Fu; inversion Iu; subst. cbv zeta. destruct (p_is_zero a) eqn:Za.
        + assert (Ta : forall w, terms_of a w = []) by (destruct a as [n d|]; [intros w; cbn [terms_of]; rewrite Za; reflexivity|discriminate]).
          cbn [terms_from]. rewrite Ta. cbn [app]. specialize (IHu (S i) deg H2 H6). cbv zeta in IHu. rewrite Nat2Z.inj_succ, <- Z.add_1_r in IHu. exact IHu.
        + destruct (H5 v (lset pow v i) H1) as (D0 & D1 & D2); [rewrite lset_length; lia|apply (zero_below_set b); auto|reflexivity|].
          rewrite tdeg_set in D1, D2 by (auto; lia). cbn [Nat.add] in D1, D2. assert (Lf : Nat.leb first v = true) by (apply Nat.leb_le; lia). rewrite Lf in D1, D2. cbn [andb] in D1, D2.
          set (d := if Nat.ltb v last then (poly_degree a first last + Z.of_nat i)%Z else poly_degree a first last).
          assert (Dd : forall T, Z.of_nat (T + (if Nat.ltb v last then i else 0))%nat = (Z.of_nat T + (d - poly_degree a first last))%Z) by (intros T; unfold d; destruct (Nat.ltb v last); lia). rewrite Dd in D1, D2.
          specialize (IHu (S i) (if (deg <? d)%Z then d else deg) H2 H6). cbv zeta in IHu. rewrite Nat2Z.inj_succ, <- Z.add_1_r in IHu.
          match type of IHu with (_ <= ?R)%Z /\ _ => set (r := R) in * end. destruct IHu as (I1 & I2 & I3). cbn [terms_from]. split; [destruct (Z.ltb_spec deg d); lia|]. split.
          * intros t Ht. apply in_app_or in Ht as [Ht|Ht]; [|apply I2; exact Ht]. specialize (D1 t Ht). destruct (Z.ltb_spec deg d); lia.
          * destruct I3 as [(t & Ht & Et)|E]; [left; exists t; split; [apply in_or_app; auto|exact Et]|]. destruct (Z.ltb_spec deg d) as [C|C].
            -- left. destruct D2 as (t & Ht & Et). exists t. split; [apply in_or_app; auto|]. rewrite Et, E. lia.
            -- right. exact E. }
    specialize (X l 0%nat (-1)%Z F IH). cbv zeta in X. cbn [Z.of_nat] in X. match type of X with (_ <= ?R)%Z /\ _ => set (r := R) in * end. destruct X as (X1 & X2 & X3).
    change (0 <= r)%Z with (0 <= r)%Z. assert (R0 : r <> (-1)%Z).
    { destruct (terms_nonempty (Rec v l) b pow O' eq_refl) as (t & Ht). rewrite terms_rec in Ht. specialize (X2 t Ht). intros E.
      destruct (terms_at v l pow t 0%nat F ltac:(lia) Ht) as (k & a & _ & Hk & _).
      assert (T : (tdeg first last 0 pow <= tdeg first last 0 (snd t))%nat); [|lia].
      destruct (terms_above (Rec v l) b pow t O' Hb) as (A & B & _); [rewrite terms_rec; exact Ht|].
      clear - A B Hz. assert (G : forall p q s, length q = length p -> (forall i, (nth i p 0 <= nth i q 0)%nat) -> (tdeg first last s p <= tdeg first last s q)%nat).
      { induction p as [|k p IHp]; intros [|k' q] s Lq Hq; cbn [tdeg]; try (cbn in Lq; lia). specialize (IHp q (S s) ltac:(cbn in Lq; lia) (fun i => Hq (S i))). specialize (Hq 0%nat). cbn in Hq. destruct (_ && _); lia. }
      apply G; [exact A|]. intros i. destruct (Nat.lt_ge_cases i b) as [C|C]; [rewrite (Hz i C); lia|rewrite B by exact C; lia]. }
    split; [lia|]. split; [exact X2|]. destruct X3 as [X3|X3]; [exact X3|]. lia.
Qed.
(** ** polynomials from terms *)
Lemma from_term_loop_ok b : forall pow i p, (i + length pow <= b)%nat -> ordered b p -> exists m, from_term_loop i pow p = Ok m /\ ordered b m /\ (forall x, pval x m == pval x p * mono x i pow) /\ (reduced p -> reduced m).
Proof.
  induction pow as [|k t IH]; intros i p Hi O.
  - exists p. split; [reflexivity|]. split; [exact O|]. split; [intros x; cbn; ring|auto].
  - cbn [from_term_loop length mono] in *. destruct (Nat.eqb_spec k 0) as [->|N].
    + destruct (IH (S i) p) as (m & A & B & C & D); [lia|exact O|]. exists m. split; [exact A|]. split; [exact B|]. split; [intros x; rewrite C; cbn [pw]; ring|exact D].
    + destruct (var_pow_ok i k b) as (Ov & Vv & Rv & _); [lia|lia|]. destruct (poly_mul_ok p (var_pow i k) b O Ov) as (q & Aq & Oq & Vq & Rq & _). rewrite Aq. cbn [LocalModel.bind].
      destruct (IH (S i) q) as (m & A & B & C & D); [lia|exact Oq|]. exists m. split; [exact A|]. split; [exact B|]. split; [intros x; rewrite C, Vq, Vv; ring|auto].
Qed.
