(** Homogenisation of polynomials. *)
From Coq Require Import ZArith List Bool QArith Arith Lia Lqa Setoid Morphisms ZifyBool.
From Verif Require Import SeqModel MatModel ValModel BMapModel BMapLists LocalModel PolyModel PolySpec PolyBase PolyArith PolyOps PolyOps2 PolyOps3 PolyUniq PolyTerms.
Import ListNotations.
Open Scope Q_scope.

Lemma degree_nonneg first last p b : ordered b p -> p_is_zero p = false -> (0 <= poly_degree p first last)%Z.
Proof. intros O Z. apply (degree_ok first last p b (repeat 0%nat b)); auto; [rewrite repeat_length; lia|]. intros i _. apply nth_repeat. Qed.
Lemma degree_child first last v l k a : (first <= v)%nat -> (v < last)%nat -> nth_error l k = Some a -> p_is_zero a = false ->
  (poly_degree a first last + Z.of_nat k <= poly_degree (Rec v l) first last)%Z.
Proof.
  intros H1 H2 Hk Za. cbn [poly_degree p_is_zero]. rewrite (proj2 (Nat.ltb_ge _ _) H1).
  assert (X : forall u i deg, let r := (fix go i l deg := match l with [] => deg | a :: t => if p_is_zero a then go (i + 1)%Z t deg else
            let d := poly_degree a first last in let d := if Nat.ltb v last then (d + i)%Z else d in go (i + 1)%Z t (if (deg <? d)%Z then d else deg) end) i u deg in
      (deg <= r)%Z /\ (forall k, nth_error u k = Some a -> (poly_degree a first last + (i + Z.of_nat k) <= r)%Z)).
  { induction u as [|c u IHu]; intros i deg; [cbn; split; [lia|]; intros [|k']; discriminate|]. cbv zeta. rewrite (proj2 (Nat.ltb_lt _ _) H2). destruct (p_is_zero c) eqn:Zc.
    - destruct (IHu (i + 1)%Z deg) as [A B]. cbv zeta in A, B. rewrite (proj2 (Nat.ltb_lt _ _) H2) in A, B. split; [exact A|]. intros [|k']; cbn [nth_error]; [intros E; injection E as ->; congruence|]. intros E. specialize (B k' E). lia.
    - destruct (IHu (i + 1)%Z (if (deg <? poly_degree c first last + i)%Z then (poly_degree c first last + i)%Z else deg)) as [A B]. cbv zeta in A, B. rewrite (proj2 (Nat.ltb_lt _ _) H2) in A, B.
      match type of A with (_ <= ?R)%Z => set (r := R) in * end. split; [destruct (Z.ltb_spec deg (poly_degree c first last + i)); lia|]. intros [|k']; cbn [nth_error].
      + intros E. injection E as ->. destruct (Z.ltb_spec deg (poly_degree a first last + i)); lia.
      + intros E. specialize (B k' E). lia. }
  destruct (X l 0%Z (-1)%Z) as [_ B]. apply B. exact Hk.
Qed.
Lemma pw_mul s z n : pw (s * z) n == pw s n * pw z n.
Proof. induction n as [|n IH]; cbn; [ring|]. rewrite IH. ring. Qed.
Lemma hom_cst first last deg target p b : (first < last)%nat -> (deg < target)%nat -> ordered first p -> (b <= last)%nat -> p_is_zero p = false ->
  exists m, LocalModel.bind (poly_mul p_one p) (fun c => Ok (Rec first (repeat p_zero (target - deg) ++ [c]))) = Ok m /\ ordered (Nat.max b (S first)) m /\ p_is_zero m = false /\
    (forall x, x first == 1 -> pval x m == pval x p) /\ (forall x s, pval (scaled x s first last) m == pw s (target - deg) * pval x m).
Proof.
  intros Hf Hd O Hb Z. destruct (poly_mul_ok p_one p first) as (c & A & Oc & V & _ & Zc); [cbn; lia|exact O|]. rewrite A. cbn [LocalModel.bind]. eexists. split; [reflexivity|].
  assert (Vc : forall x, pval x c == pval x p) by (intros x; rewrite V; cbn; ring).
  assert (Hh : forall x, pval x (Rec first (repeat p_zero (target - deg) ++ [c])) == pw (x first) (target - deg) * pval x p).
  { intros x. rewrite pval_rec, vals_app, horner_app, vals_length, repeat_length. cbn [vals map horner]. rewrite Vc. assert (E : horner (x first) (vals x (repeat p_zero (target - deg))) == 0); [|rewrite E; ring].
    clear. induction (target - deg)%nat as [|k IH]; [reflexivity|]. unfold vals in *. cbn [repeat map horner]. rewrite IH. cbn. ring. }
  split; [|split; [reflexivity|split]].
  - apply ordered_rec. rewrite app_length, repeat_length. cbn [length]. split; [lia|]. split; [lia|]. split; [rewrite last_last; apply Zc; [reflexivity|exact Z]|].
    apply Forall_app. split; [apply Forall_forall; intros y Hy; apply repeat_spec in Hy; subst; cbn; lia|]. constructor; [exact Oc|constructor].
  - intros x Hx. rewrite Hh, (pw_ext _ 1 _ Hx). assert (E : forall k, pw 1 k == 1) by (induction k; cbn; [reflexivity|rewrite IHk; ring]). rewrite E. ring.
  - intros x s. rewrite !Hh. assert (E : scaled x s first last first = s * x first) by (unfold scaled; rewrite Nat.leb_refl, (proj2 (Nat.ltb_lt _ _) Hf); reflexivity). rewrite E, pw_mul.
    rewrite (pval_ext (scaled x s first last) x p first O); [ring|]. intros u Hu. unfold scaled. destruct (Nat.leb_spec first u); [lia|reflexivity].
Qed.
Lemma hom_ok first last target : (first < last)%nat -> forall p b deg, ordered b p -> (b <= last)%nat -> ~ occurs first p -> (p_is_zero p = false -> (Z.of_nat deg + poly_degree p first last <= Z.of_nat target)%Z) ->
  exists m, homogenize p deg target first last = Ok m /\ ordered (Nat.max b (S first)) m /\ p_is_zero m = p_is_zero p /\
    (forall x, x first == 1 -> pval x m == pval x p) /\ (forall x s, pval (scaled x s first last) m == pw s (target - deg) * pval x m).
Proof.
  intros Hf. induction p as [n d|v l IH] using poly_ind'; intros b deg O Hb N D.
  - cbn [homogenize]. destruct (p_is_zero (Cst n d)) eqn:Z.
    { exists (Cst n d). split; [reflexivity|]. split; [exact O|]. split; [exact Z|]. split; [reflexivity|]. intros x s. rewrite !(is_zero_val _ _ Z). ring. }
    destruct (Nat.eqb_spec deg target) as [->|E].
    { exists (Cst n d). split; [reflexivity|]. split; [exact O|]. split; [exact Z|]. split; [reflexivity|]. intros x s. rewrite Nat.sub_diag. cbn. ring. }
    specialize (D eq_refl). pose proof (degree_nonneg first last _ b O Z). destruct (Nat.ltb_spec target deg); [lia|]. apply (hom_cst first last deg target (Cst n d) b); auto; [lia].
  - pose proof O as O'. apply ordered_rec in O as (Hv & Hn & Hl & F). specialize (D eq_refl). cbn [homogenize p_is_zero]. pose proof (degree_nonneg first last _ b O' eq_refl) as D0.
    assert (Low : (v < first)%nat -> ordered first (Rec v l)) by (intros; apply ordered_rec; auto).
    assert (NL : (first <= v)%nat -> (Z.of_nat deg + 1 <= Z.of_nat target)%Z).
    { intros Hfv. assert (Hk : nth_error l (length l - 1) = Some (List.last l p_zero)). { rewrite last_nth. apply nth_error_nth'. lia. }
      pose proof (degree_child first last v l (length l - 1) _ Hfv ltac:(lia) Hk Hl).
      assert (0 <= poly_degree (List.last l p_zero) first last)%Z; [|lia]. apply (degree_nonneg first last _ v); [|exact Hl]. rewrite Forall_forall in F. apply F. eapply nth_error_In. exact Hk. }
    destruct (Nat.eqb_spec deg target) as [->|E].
    { assert (v < first)%nat by lia. exists (Rec v l). split; [reflexivity|]. split; [apply (ordered_mono b); [lia|exact O']|]. split; [reflexivity|]. split; [reflexivity|].
      intros x s. rewrite Nat.sub_diag. cbn [pw]. rewrite Qmult_1_l. apply (pval_ext _ _ _ first); [auto|]. intros u Hu. unfold scaled. destruct (Nat.leb_spec first u); [lia|reflexivity]. }
    destruct (Nat.ltb_spec v first) as [L|L].
    { destruct (Nat.ltb_spec target deg); [lia|]. apply (hom_cst first last deg target (Rec v l) b); auto; lia. }
    assert (Hvl : (v < last)%nat) by lia. rewrite (proj2 (Nat.ltb_lt _ _) Hvl).
    assert (Nv : v <> first) by (intros ->; apply N; apply occurs_rec; auto).
    assert (X : forall u i, Forall (ordered v) u -> Forall (fun p => forall b deg, ordered b p -> (b <= last)%nat -> ~ occurs first p -> (p_is_zero p = false -> (Z.of_nat deg + poly_degree p first last <= Z.of_nat target)%Z) ->
        exists m, homogenize p deg target first last = Ok m /\ ordered (Nat.max b (S first)) m /\ p_is_zero m = p_is_zero p /\
          (forall x, x first == 1 -> pval x m == pval x p) /\ (forall x s, pval (scaled x s first last) m == pw s (target - deg) * pval x m)) u ->
        ~ Exists (occurs first) u -> (deg + i + length u <= S target)%nat -> (forall k a, nth_error u k = Some a -> p_is_zero a = false -> (Z.of_nat (deg + (i + k)) + poly_degree a first last <= Z.of_nat target)%Z) ->
      exists u', (fix go i l := match l with [] => Ok [] | a :: t => LocalModel.bind (if p_is_zero a then Ok a else homogenize a (deg + i)%nat target first last)
                 (fun a' => LocalModel.bind (go (S i) t) (fun t' => Ok (a' :: t'))) end) i u = Ok u' /\ length u' = length u /\ Forall (ordered v) u' /\ p_is_zero (List.last u' p_zero) = p_is_zero (List.last u p_zero) /\
        (forall x z, x first == 1 -> horner z (vals x u') == horner z (vals x u)) /\
        (forall x s z, horner (s * z) (vals (scaled x s first last) u') == pw s (target - (deg + i)) * horner z (vals x u'))).
    { induction u as [|a u IHu]; intros i Fu Iu Nu Lu Du.
      - exists []. split; [reflexivity|]. split; [reflexivity|]. split; [constructor|]. split; [reflexivity|]. split; [reflexivity|]. intros. cbn. ring.
      - inversion Fu; inversion Iu; subst. destruct (IHu (S i)) as (u' & A' & L' & O1 & Z' & V' & S'); [assumption|assumption|intros Q; apply Nu; right; exact Q|cbn [length] in Lu; lia| |].
        { intros k c Hk Zc. specialize (Du (S k) c Hk Zc). lia. }
        assert (Y : exists a', (if p_is_zero a then Ok a else homogenize a (deg + i)%nat target first last) = Ok a' /\ ordered v a' /\ p_is_zero a' = p_is_zero a /\ (forall x, x first == 1 -> pval x a' == pval x a) /\
           (forall x s, pval (scaled x s first last) a' == pw s (target - (deg + i)) * pval x a')).
        { destruct (p_is_zero a) eqn:Za.
          - exists a. split; [reflexivity|]. split; [assumption|]. split; [exact Za|]. split; [reflexivity|]. intros x s. rewrite !(is_zero_val _ _ Za). ring.
          - specialize (Du 0%nat a eq_refl Za). pose proof (degree_nonneg first last a v H1 Za). rewrite Nat.add_0_r in Du.
            destruct (H5 v (deg + i)%nat H1) as (a' & A & B & C & V & S); [lia|intros Q; apply Nu; left; exact Q|intros _; exact Du|]. exists a'. split; [exact A|]. split; [replace v with (Nat.max v (Datatypes.S first)) by lia; exact B|]. split; [exact C|]. split; [exact V|exact S]. }
        destruct Y as (a' & A & B & C & V & S). rewrite A. cbn [LocalModel.bind]. rewrite A'. cbn [LocalModel.bind]. exists (a' :: u'). split; [reflexivity|]. split; [cbn; lia|]. split; [constructor; assumption|].
        split; [destruct u', u; try (cbn in L'; lia); [exact C|exact Z']|]. split.
        + intros x z Hx. cbn [vals map horner]. rewrite (V x Hx). unfold vals in V'. rewrite (V' x z Hx). reflexivity.
        + intros x s z. cbn [vals map horner]. unfold vals in S'. rewrite (S x s), S'. destruct u' as [|c' w']; [cbn; ring|].
          assert (Et : (target - (deg + i) = Datatypes.S (target - (deg + Datatypes.S i)))%nat) by (cbn [length] in Lu, L'; lia). rewrite Et. cbn [pw]. ring. }
    destruct (X l 0%nat F IH) as (l' & A & L' & O1 & Z' & V' & S').
    { intros Q. apply N. apply occurs_rec. auto. }
    { assert (Hk : nth_error l (length l - 1) = Some (List.last l p_zero)) by (rewrite last_nth; apply nth_error_nth'; lia). pose proof (degree_child first last v l (length l - 1) _ L Hvl Hk Hl).
      assert (0 <= poly_degree (List.last l p_zero) first last)%Z; [|lia]. apply (degree_nonneg first last _ v); [|exact Hl]. rewrite Forall_forall in F. apply F. eapply nth_error_In. exact Hk. }
    { intros k a Hk Za. pose proof (degree_child first last v l k a L Hvl Hk Za). lia. }
    rewrite A. cbn [LocalModel.bind]. exists (Rec v l'). split; [reflexivity|]. split; [apply ordered_rec; split; [lia|]; split; [lia|]; split; [congruence|exact O1]|]. split; [reflexivity|]. split.
    + intros x Hx. rewrite !pval_rec. apply V'. exact Hx.
    + intros x s. rewrite !pval_rec. specialize (S' x s (x v)). rewrite Nat.add_0_r in S'. assert (Ev : scaled x s first last v = s * x v) by (unfold scaled; rewrite (proj2 (Nat.leb_le _ _) L), (proj2 (Nat.ltb_lt _ _) Hvl); reflexivity).
      rewrite Ev. exact S'.
Qed.
