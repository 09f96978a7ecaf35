(** Renaming and substituting variables, evaluation and conversions. *)
From Coq Require Import ZArith List Bool QArith Arith Lia Setoid Morphisms ZifyBool.
From Verif Require Import SeqModel MatModel ValModel BMapModel BMapLists LocalModel PolyModel PolySpec PolyBase PolyArith PolyOps.
Import ListNotations.
Open Scope Q_scope.

Lemma horner_vals_ext z x y l : Forall (fun a => pval x a == pval y a) l -> horner z (vals x l) == horner z (vals y l).
Proof. intros F. apply horner_peq. induction F; constructor; auto. Qed.

(** ** reorder *)
(** [x] after renaming *)
Lemma reorder_ok r b : forall p a, ordered a p -> (a <= length r)%nat -> Forall (fun v => (v < b)%nat) r ->
  exists m, reorder p r = Ok m /\ ordered b m /\ (forall x, pval x m == pval (renamed x r) p) /\ (reduced p -> reduced m).
Proof.
  induction p as [n d|v l IH] using poly_ind'; intros a O Ha Hr.
  - exists (Cst n d). split; [reflexivity|]. split; [exact O|]. split; [reflexivity|auto].
  - apply ordered_rec in O as (Hv & Hn & _ & F). cbn [reorder].
    destruct (nth_error r v) as [w|] eqn:E; [|apply nth_error_None in E; lia].
    assert (Hw : (w < b)%nat) by (rewrite Forall_forall in Hr; apply Hr; eapply nth_error_In; exact E).
    assert (Ew : forall x, renamed x r v = x w) by (intros x; unfold renamed; erewrite nth_error_nth by exact E; reflexivity).
    destruct (var_pow_ok w 1 b Hw) as (Ov & Vv & Rv & _); [lia|].
    assert (X : exists m, (fix go l := match l with [] => Null | [a] => reorder a r
       | a :: t => LocalModel.bind (go t) (fun s => LocalModel.bind (poly_mul s (var_pow w 1)) (fun s => LocalModel.bind (reorder a r) (fun b => poly_sum s b))) end) l = Ok m /\
       ordered b m /\ (forall x, pval x m == horner (x w) (vals (renamed x r) l)) /\ (Forall reduced l -> reduced m)).
    { assert (Hn' : (1 <= length l)%nat) by lia. clear Hn. induction l as [|c t IHl]; [cbn in Hn'; lia|]. inversion IH; inversion F; subst.
      destruct (H1 v H5) as (mc & Ac & Oc & Vc & Rc); [lia|exact Hr|]. destruct t as [|c' t'].
      - exists mc. split; [exact Ac|]. split; [exact Oc|]. split; [intros x; cbn [vals map horner]; rewrite Vc; ring|]. intros R; inversion R; auto.
      - destruct IHl as (s & As & Os & Vs & Rs); [assumption|assumption|cbn; lia|]. rewrite As. cbn [LocalModel.bind].
        destruct (poly_mul_ok s (var_pow w 1) b Os Ov) as (s' & Am & Om & Vm & Rm & _). rewrite Am. cbn [LocalModel.bind]. rewrite Ac. cbn [LocalModel.bind].
        destruct (poly_sum_ok s' mc b Om Oc) as (q & Aq & Oq & Vq & Rq). exists q. split; [exact Aq|]. split; [exact Oq|]. split.
        + intros x. rewrite Vq, Vm, Vs, Vv, Vc, pw_1. cbn [vals map horner]. unfold vals. cbn [map]. ring.
        + intros R. inversion R; subst. auto. }
    destruct X as (m & A & B & C & D). exists m. split; [exact A|]. split; [exact B|]. split; [|rewrite reduced_rec; exact D].
    intros x. rewrite C, pval_rec, Ew. reflexivity.
Qed.

(** ** expand *)
Lemma increasing_ge l : increasing l -> forall i, (i < length l)%nat -> (i <= nth i l 0)%nat.
Proof. intros H i. induction i as [|i IH]; intros Hi; [lia|]. specialize (H i (S i) ltac:(lia) Hi). specialize (IH ltac:(lia)). lia. Qed.
Lemma increasing_fix l : increasing l -> forall j, (j < length l)%nat -> nth j l 0%nat = j -> forall i, (i <= j)%nat -> nth i l 0%nat = i.
Proof.
  intros H j. induction j as [|j IH]; intros Hj E i Hi; [assert (i = 0)%nat by lia; subst; exact E|]. destruct (Nat.eq_dec i (S j)) as [->|]; [exact E|].
  apply IH; [lia| |lia]. pose proof (H j (S j) ltac:(lia) Hj). pose proof (increasing_ge l H j ltac:(lia)). lia.
Qed.
Lemma expand_ok exp first b : increasing exp -> (forall i, (i < length exp)%nat -> (nth i exp 0 + first < b)%nat) -> (first <= b)%nat ->
  forall p a, ordered a p -> (a <= first + length exp)%nat ->
  exists m, expand p exp first = Ok m /\ ordered b m /\
    (forall w, (w < length exp)%nat -> (pvar p < Z.of_nat (w + first))%Z -> ordered (nth w exp 0 + first)%nat m) /\ ((pvar p < Z.of_nat first)%Z -> ordered first m) /\
    (forall x, pval x m == pval (expanded x exp first) p) /\ (reduced p -> reduced m) /\ p_is_zero m = p_is_zero p.
Proof.
  intros Hi Hb Hfb. induction p as [n d|v l IH] using poly_ind'; intros a O Ha.
  - exists (Cst n d). split; [reflexivity|]. split; [exact O|]. split; [intros; exact O|]. split; [intros; exact O|]. split; [reflexivity|auto].
  - pose proof O as O'. apply ordered_rec in O as (Hv & Hn & Hl & F). cbn [expand].
    destruct (Nat.ltb_spec v first) as [L|L].
    { exists (Rec v l). assert (On : forall c, (v < c)%nat -> ordered c (Rec v l)) by (intros c Hc; apply ordered_rec; auto).
      split; [reflexivity|]. split; [apply On; lia|]. split; [intros; apply On; lia|]. split; [intros; apply On; lia|]. split; [|auto].
      intros x. apply (pval_ext _ _ _ first); [apply On; exact L|]. intros u Hu. unfold expanded. rewrite (proj2 (Nat.ltb_lt _ _) Hu). reflexivity. }
    destruct (nth_error exp (v - first)) as [e|] eqn:E; [|apply nth_error_None in E; lia].
    assert (Ee : nth (v - first) exp 0%nat = e) by (erewrite nth_error_nth by exact E; reflexivity).
    destruct (Nat.eqb_spec e (v - first)) as [Eq|Ne].
    { exists (Rec v l). assert (On : forall c, (v < c)%nat -> ordered c (Rec v l)) by (intros c Hc; apply ordered_rec; auto).
      assert (Vb : (v < b)%nat) by (pose proof (Hb (v - first)%nat ltac:(lia)); lia).
      split; [reflexivity|]. split; [apply On; exact Vb|]. split; [|split; [cbn [pvar]; lia|]].
      { intros w Hw Hp. cbn [pvar] in Hp. apply On. pose proof (increasing_ge _ Hi w Hw). lia. }
      split; [|auto]. intros x. apply (pval_ext _ _ _ (S v)); [apply On; lia|]. intros u Hu. unfold expanded. destruct (Nat.ltb_spec u first); [reflexivity|].
      rewrite (increasing_fix exp Hi (v - first) ltac:(lia) ltac:(lia) (u - first)) by lia. replace (u - first + first)%nat with u by lia. reflexivity. }
    assert (X : exists l', (fix go l := match l with [] => Ok [] | a :: t => LocalModel.bind (expand a exp first) (fun a' => LocalModel.bind (go t) (fun t' => Ok (a' :: t'))) end) l = Ok l' /\
      length l' = length l /\ Forall (ordered (e + first)) l' /\ (forall x z, horner z (vals x l') == horner z (vals (expanded x exp first) l)) /\ (Forall reduced l -> Forall reduced l') /\
      p_is_zero (last l' p_zero) = p_is_zero (last l p_zero)).
    { clear Hn Hl O'. induction l as [|c t IHl].
      - exists []. split; [reflexivity|]. split; [reflexivity|]. split; [constructor|]. split; [reflexivity|]. auto.
      - inversion IH; inversion F; subst. destruct (H1 v H5) as (mc & Ac & Oc & O1 & _ & Vc & Rc & Zc); [lia|].
        destruct IHl as (t' & At & Lt & Ot & Vt & Rt & Zt); [assumption|assumption|]. rewrite Ac. cbn [LocalModel.bind]. rewrite At. cbn [LocalModel.bind]. exists (mc :: t').
        split; [reflexivity|]. split; [cbn; lia|]. split; [constructor; [|exact Ot]; apply O1; [lia|pose proof (pvar_bound _ _ H5); lia]|].
        split; [intros x z; cbn [vals map horner]; rewrite Vc; unfold vals in Vt; rewrite Vt; reflexivity|]. split; [intros R; inversion R; subst; constructor; auto|].
        destruct t' as [|c' t'], t as [|c'' t'']; try (cbn in Lt; lia); [exact Zc|]. exact Zt. }
    destruct X as (l' & A & L' & Ol & Vl & Rl & Zl). rewrite A. cbn [LocalModel.bind]. exists (Rec (e + first) l').
    assert (On : forall c, (e + first < c)%nat -> ordered c (Rec (e + first) l')) by (intros c Hc; apply ordered_rec; split; [exact Hc|]; split; [lia|]; split; [congruence|exact Ol]).
    assert (Hvl : (v - first < length exp)%nat) by lia.
    split; [reflexivity|]. split; [apply On; subst e; auto|]. split; [|split; [cbn [pvar]; lia|]].
    { intros w Hw Hp. cbn [pvar] in Hp. apply On. subst e. pose proof (Hi (v - first)%nat w ltac:(lia) Hw). lia. }
    split; [|split; [rewrite !reduced_rec; exact Rl|reflexivity]].
    assert (Ev : forall x, expanded x exp first v = x (e + first)%nat) by (intros x; unfold expanded; destruct (Nat.ltb_spec v first); [lia|]; rewrite Ee; reflexivity).
    intros x. rewrite !pval_rec, Vl, Ev. reflexivity.
Qed.

(** ** the constant term *)
Lemma constant_ok : forall p b, ordered b p -> exists c, constant_val p = Ok c /\ (0 < vd c)%Z /\ (vn c # Z.to_pos (vd c)) == pval (fun _ => 0) p.
Proof.
  induction p as [n d|v l IH] using poly_ind'; intros b O.
  - exists (v_rat_raw n d). split; [reflexivity|]. split; [exact O|reflexivity].
  - apply ordered_rec in O as (Hv & Hn & Hl & F). destruct l as [|a t]; [cbn in Hn; lia|]. inversion IH; inversion F; subst. destruct (H1 v H5) as (c & A & B & C).
    exists c. split; [exact A|]. split; [exact B|]. rewrite C, pval_rec. cbn [vals map horner]. ring.
Qed.

(** ** substitution *)
Lemma subs_ok first n subs b : length subs = n -> Forall (ordered b) subs -> forall p a, ordered a p -> (a <= b)%nat ->
  exists m, poly_subs p first n subs = Ok m /\ ordered b m /\ (forall x, pval x m == pval (substituted x first n subs) p) /\ (Forall reduced subs -> reduced p -> reduced m).
Proof.
  intros Hs Fs. induction p as [nn d|v l IH] using poly_ind'; intros a O Ha.
  - exists (Cst nn d). split; [reflexivity|]. split; [exact O|]. split; [reflexivity|auto].
  - pose proof O as O'. apply ordered_rec in O as (Hv & Hn & Hl & F). cbn [poly_subs]. destruct (Nat.ltb_spec v first) as [L|L].
    { exists (Rec v l). split; [reflexivity|]. split; [apply (ordered_mono a); assumption|]. split; [|auto]. intros x. apply (pval_ext _ _ _ (S v)).
      - apply ordered_rec. split; [lia|auto].
      - intros u Hu. unfold substituted. destruct (Nat.ltb_spec u first); [reflexivity|lia]. }
    assert (B : exists base, (if Nat.leb (first + n) v then Ok (var_pow v 1) else match nth_error subs (v - first) with Some s => Ok s | None => UB end) = Ok base /\
      ordered b base /\ (forall x, pval x base == substituted x first n subs v) /\ (Forall reduced subs -> reduced base)).
    { unfold substituted. rewrite (proj2 (Nat.ltb_ge _ _) L). destruct (Nat.leb_spec (first + n) v) as [M|M].
      - destruct (var_pow_ok v 1 b) as (Ov & Vv & Rv & _); [lia|lia|]. exists (var_pow v 1). split; [reflexivity|]. split; [exact Ov|]. split; [intros x; rewrite Vv; apply pw_1|auto].
      - destruct (nth_error subs (v - first)) as [s|] eqn:E; [|apply nth_error_None in E; lia]. exists s. split; [reflexivity|]. pose proof (nth_error_In _ _ E) as Hin. rewrite Forall_forall in Fs.
        split; [auto|]. split; [intros x; erewrite nth_error_nth by exact E; reflexivity|]. intros R. rewrite Forall_forall in R. auto. }
    destruct B as (base & Ab & Ob & Vb & Rb). rewrite Ab. cbn [LocalModel.bind].
    assert (X : exists m, (fix go l := match l with [] => Null | [a] => poly_subs a first n subs
       | a :: t => LocalModel.bind (go t) (fun s => LocalModel.bind (poly_subs a first n subs) (fun b => LocalModel.bind (poly_mul s base) (fun s => poly_sum s b))) end) l = Ok m /\
       ordered b m /\ (forall x, pval x m == horner (substituted x first n subs v) (vals (substituted x first n subs) l)) /\ (Forall reduced subs -> Forall reduced l -> reduced m)).
    { assert (Hn' : (1 <= length l)%nat) by lia. clear Hn Hl O'. induction l as [|c t IHl]; [cbn in Hn'; lia|]. inversion IH; inversion F; subst.
      destruct (H1 v H5) as (mc & Ac & Oc & Vc & Rc); [lia|]. destruct t as [|c' t'].
      - exists mc. split; [exact Ac|]. split; [exact Oc|]. split; [intros x; cbn [vals map horner]; rewrite Vc; ring|]. intros Q R; inversion R; auto.
      - destruct IHl as (s & As & Os & Vs & Rs); [assumption|assumption|cbn; lia|]. rewrite As. cbn [LocalModel.bind]. rewrite Ac. cbn [LocalModel.bind].
        destruct (poly_mul_ok s base b Os Ob) as (s' & Am & Om & Vm & Rm & _). rewrite Am. cbn [LocalModel.bind].
        destruct (poly_sum_ok s' mc b Om Oc) as (q & Aq & Oq & Vq & Rq). exists q. split; [exact Aq|]. split; [exact Oq|]. split.
        + intros x. rewrite Vq, Vm, Vs, Vb, Vc. cbn [vals map horner]. unfold vals. cbn [map]. ring.
        + intros Q R. inversion R; subst. auto. }
    destruct X as (m & A & B & C & D). exists m. split; [exact A|]. split; [exact B|]. split; [|rewrite reduced_rec; exact D].
    intros x. rewrite C, pval_rec. reflexivity.
Qed.

(** ** affine expressions *)
(** [f] starts at variable [i] *)
Lemma cst_times n d x : (0 < d)%Z -> inject_Z d * pval x (Cst n d) == inject_Z n.
Proof. intros H. rewrite cst_val. unfold Qeq. cbn. rewrite ?Pos.mul_1_r, Z2Pos.id by lia. ring. Qed.
Lemma from_affine_loop_ok denom b : (0 < denom)%Z -> forall f i p, (i + length f <= b)%nat -> ordered b p ->
  exists m, from_affine_loop i f denom p = Ok m /\ ordered b m /\ (forall x, inject_Z denom * pval x m == inject_Z denom * pval x p + affv x i f).
Proof.
  intros Hd. induction f as [|c t IH]; intros i p Hi O.
  - exists p. split; [reflexivity|]. split; [exact O|]. intros x. cbn. ring.
  - cbn [from_affine_loop length] in *. destruct (Z.eqb_spec c 0) as [->|Hc].
    + destruct (IH (S i) p) as (m & A & B & C); [lia|exact O|]. exists m. split; [exact A|]. split; [exact B|]. intros x. rewrite C. cbn [affv]. unfold inject_Z at 3. ring.
    + destruct (var_pow_ok i 1 b) as (Ov & Vv & Rv & _); [lia|lia|]. destruct (poly_mul_ok (p_rat_cst c denom) (var_pow i 1) b Hd Ov) as (m & Am & Om & Vm & _). rewrite Am. cbn [LocalModel.bind].
      destruct (poly_sum_ok p m b O Om) as (s & As & Os & Vs & _). rewrite As. cbn [LocalModel.bind]. destruct (IH (S i) s) as (r & A & B & C); [lia|exact Os|]. exists r.
      split; [exact A|]. split; [exact B|]. intros x. rewrite C, Vs, Vm, Vv, pw_1. cbn [affv]. rewrite <- (cst_times c denom x Hd) at 1. unfold p_rat_cst. ring.
Qed.
Lemma from_affine_ok c f denom b : (0 < denom)%Z -> (length f <= b)%nat ->
  exists m, from_affine (c :: f) denom = Ok m /\ ordered b m /\ (forall x, inject_Z denom * pval x m == inject_Z c + affv x 0 f).
Proof.
  intros Hd Hb. unfold from_affine. destruct (from_affine_loop_ok denom b Hd f 0 (p_rat_cst c denom)) as (m & A & B & C); [lia|exact Hd|].
  exists m. split; [exact A|]. split; [exact B|]. intros x. rewrite C. unfold p_rat_cst. rewrite cst_times by exact Hd. reflexivity.
Qed.

(** ** evaluation *)
