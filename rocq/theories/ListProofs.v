(** Proofs about ListModel. *)
From Coq Require Import ZArith List Bool Lia Arith Permutation ZifyBool.
From Verif Require Import ListModel ListSpec.
Import ListNotations.
Open Scope Z_scope.

(** ** Lists *)
Lemma lset_length {A} (l : list A) i x : length (lset l i x) = length l.
Proof. revert i; induction l; destruct i; simpl; auto. Qed.
Lemma lset_nth_eq {A} (l : list A) i x d : (i < length l)%nat -> nth i (lset l i x) d = x.
Proof. revert i; induction l; destruct i; simpl; intros; auto; try lia. apply IHl; lia. Qed.
Lemma lset_nth_neq {A} (l : list A) i j x d : i <> j -> nth j (lset l i x) d = nth j l d.
Proof. revert i j; induction l; destruct i, j; simpl; intros; auto; try lia. Qed.
Lemma lset_app {A} (l : list A) i x : (i < length l)%nat ->
  lset l i x = firstn i l ++ x :: skipn (S i) l.
Proof.
  revert i; induction l; destruct i; simpl; intros; try lia; auto.
  f_equal. rewrite IHl by lia. reflexivity.
Qed.
Lemma lset_map {A B} (f : A -> B) (l : list A) i x : map f (lset l i x) = lset (map f l) i (f x).
Proof. revert i; induction l; destruct i; simpl; intros; auto. f_equal; auto. Qed.
Lemma lset_lset {A} (l : list A) i x y : lset (lset l i x) i y = lset l i y.
Proof. revert i; induction l; destruct i; simpl; intros; auto. f_equal; auto. Qed.
Lemma lset_comm {A} (l : list A) i j x y : i <> j -> lset (lset l i x) j y = lset (lset l j y) i x.
Proof. revert i j; induction l; destruct i, j; simpl; intros; auto; try lia. f_equal; auto. Qed.
Lemma lset_same {A} (l : list A) i d : lset l i (nth i l d) = l.
Proof. revert i; induction l; destruct i; simpl; intros; auto. f_equal; auto. Qed.

Definition cz (a : addr) (l : list addr) : Z := Z.of_nat (count_occ Nat.eq_dec l a).
Lemma cz_nil a : cz a [] = 0. Proof. reflexivity. Qed.
Lemma cz_cons a b l : cz a (b :: l) = (if Nat.eqb b a then 1 else 0) + cz a l.
Proof.
  unfold cz. simpl. destruct (Nat.eq_dec b a) as [->|H].
  - rewrite Nat.eqb_refl. lia.
  - apply Nat.eqb_neq in H. rewrite H. lia.
Qed.
Lemma cz_app a l1 l2 : cz a (l1 ++ l2) = cz a l1 + cz a l2.
Proof. unfold cz. rewrite count_occ_app. lia. Qed.
Lemma cz_nonneg a l : 0 <= cz a l. Proof. unfold cz; lia. Qed.
Lemma cz_in a l : In a l <-> 0 < cz a l.
Proof. unfold cz. rewrite (count_occ_In Nat.eq_dec). lia. Qed.
Lemma cz_perm a l1 l2 : Permutation l1 l2 -> cz a l1 = cz a l2.
Proof. intros H. unfold cz. f_equal. revert a. apply Permutation_count_occ. exact H. Qed.

Definition optl (o : option addr) : list addr := match o with Some a => [a] | None => [] end.
Definition somes (p : list (option addr)) : list addr := flat_map optl p.
Definition slotsof (o : option obj) : list addr :=
  match o with Some (OList _ _ p) => somes p | _ => [] end.
Definition slots (h : heap) : list addr := flat_map slotsof h.
Definition refcnt (o : option obj) : Z :=
  match o with Some (OEl r _) => r | Some (OList r _ _) => r | None => 0 end.
Definition isel (o : option obj) : Prop := exists r v, o = Some (OEl r v).
Definition sizeok (o : option obj) : Prop :=
  match o with Some (OList _ s p) => len p <= s | _ => True end.

Definition I (h : heap) (own : list addr) : Prop :=
  (forall a, refcnt (hget h a) = cz a own + cz a (slots h)) /\
  (forall a, hget h a <> None -> 1 <= refcnt (hget h a)) /\
  (forall a, In a (slots h) -> isel (hget h a)) /\
  (forall a, sizeok (hget h a)).

(** skeleton: what a reference observes of a cell *)
Inductive skel := SkNone | SkEl (v : Z) | SkList (p : list (option addr)).
Definition sk (o : option obj) : skel :=
  match o with None => SkNone | Some (OEl _ v) => SkEl v | Some (OList _ _ p) => SkList p end.

Lemma hget_set_eq h a o : (a < length h)%nat -> hget (hset h a o) a = o.
Proof. intros. unfold hget, hset. apply lset_nth_eq; auto. Qed.
Lemma hget_set_neq h a b o : a <> b -> hget (hset h a o) b = hget h b.
Proof. intros. unfold hget, hset. apply lset_nth_neq; auto. Qed.
Lemma hget_lt h a o : hget h a = Some o -> (a < length h)%nat.
Proof.
  intros H. destruct (lt_dec a (length h)); auto.
  unfold hget in H. rewrite nth_overflow in H by lia. discriminate.
Qed.
Lemma hget_app h o a : hget (h ++ [Some o]) a =
  if Nat.eqb a (length h) then Some o else hget h a.
Proof.
  unfold hget. destruct (Nat.eqb_spec a (length h)).
  - subst. rewrite app_nth2, Nat.sub_diag by lia. reflexivity.
  - destruct (lt_dec a (length h)).
    + rewrite app_nth1; auto.
    + rewrite !nth_overflow; auto; rewrite ?app_length; simpl; lia.
Qed.
Lemma hset_length h a o : length (hset h a o) = length h.
Proof. apply lset_length. Qed.
Lemma hset_hset h a o o' : hset (hset h a o) a o' = hset h a o'.
Proof. apply lset_lset. Qed.
Lemma hset_comm h a b o o' : a <> b -> hset (hset h a o) b o' = hset (hset h b o') a o.
Proof. apply lset_comm. Qed.
Lemma slots_set h a o b : (a < length h)%nat ->
  cz b (slots (hset h a o)) + cz b (slotsof (hget h a)) = cz b (slots h) + cz b (slotsof o).
Proof.
  unfold slots, hget, hset. revert a. induction h; intros i H; [simpl in H; lia|].
  destruct i; cbn [lset flat_map nth]; rewrite !cz_app; [lia|].
  simpl in H. specialize (IHh i ltac:(lia)). lia.
Qed.
Lemma slots_app h o : slots (h ++ [Some o]) = slots h ++ slotsof (Some o).
Proof. unfold slots. rewrite flat_map_app. cbn [flat_map]. rewrite app_nil_r. reflexivity. Qed.
Lemma slots_in h a : In a (slots h) <-> exists l, In a (slotsof (hget h l)).
Proof.
  unfold slots. rewrite in_flat_map. split.
  - intros (o & H1 & H2). apply In_nth with (d := None) in H1. destruct H1 as (n & Hn & <-).
    exists n. exact H2.
  - intros (l & H). destruct (hget h l) as [o|] eqn:E; [|destruct H].
    exists (Some o). split; auto. rewrite <- E. apply nth_In. eapply hget_lt; eauto.
Qed.
Lemma in_somes a p : In a (somes p) <-> In (Some a) p.
Proof.
  unfold somes. rewrite in_flat_map. split.
  - intros ([b|] & H1 & H2); [|destruct H2]. destruct H2 as [<-|[]]. exact H1.
  - intros H. exists (Some a). split; auto. left; reflexivity.
Qed.
Lemma somes_app p q : somes (p ++ q) = somes p ++ somes q.
Proof. apply flat_map_app. Qed.

(** reachable from the references [own] *)
Definition reach (own : list addr) (h : heap) (x : addr) : Prop :=
  In x own \/ exists l, In l own /\ In x (slotsof (hget h l)).
Definition fr (own : list addr) (h h' : heap) : Prop :=
  forall x, reach own h x -> sk (hget h' x) = sk (hget h x).

Lemma slotsof_sk o o' : sk o = sk o' -> slotsof o = slotsof o'.
Proof. destruct o as [[]|], o' as [[]|]; simpl; intros H; try discriminate; auto. inversion H; auto. Qed.
Lemma reach_fr own h h' x : fr own h h' -> reach own h x -> reach own h' x.
Proof.
  intros F [H|(l & H1 & H2)]; [left; auto|].
  right. exists l. split; auto. rewrite (slotsof_sk _ (hget h l)); auto.
  apply F. left; auto.
Qed.
Lemma fr_refl own h : fr own h h. Proof. intros x _. reflexivity. Qed.
Lemma fr_trans own h1 h2 h3 : fr own h1 h2 -> fr own h2 h3 -> fr own h1 h3.
Proof.
  intros A B x R. rewrite (B x); [apply A; auto|]. eapply reach_fr; eauto.
Qed.
Lemma reach_incl own own' h x : incl own own' -> reach own h x -> reach own' h x.
Proof. intros S [H|(l & H1 & H2)]; [left; auto|right; exists l; auto]. Qed.
Lemma fr_incl own own' h h' : incl own own' -> fr own' h h' -> fr own h h'.
Proof. intros S F x R. apply F. eapply reach_incl; eauto. Qed.

Lemma I_perm h own own' : Permutation own own' -> I h own -> I h own'.
Proof.
  intros P (A & B). split; [|exact B]. intros a. rewrite A. f_equal. apply cz_perm; auto.
Qed.
Lemma I_live h own a : I h own -> In a own -> hget h a <> None.
Proof.
  intros (A & _) H E. specialize (A a). rewrite E in A. simpl in A.
  apply cz_in in H. pose proof (cz_nonneg a (slots h)). lia.
Qed.
Lemma reach_live h own a : I h own -> reach own h a -> hget h a <> None.
Proof.
  intros HI [H|(l & H1 & H2)]; [eapply I_live; eauto|].
  destruct HI as (_ & _ & T & _). destruct (T a) as (r & v & E); [|rewrite E; discriminate].
  apply slots_in. exists l; auto.
Qed.
(** a cell whose only reference is the first one is not otherwise reachable *)
Lemma sole h own a : I h (a :: own) -> refcnt (hget h a) = 1 -> ~ reach own h a.
Proof.
  intros (A & _) R. specialize (A a). rewrite cz_cons, Nat.eqb_refl in A.
  pose proof (cz_nonneg a own). pose proof (cz_nonneg a (slots h)).
  intros [H1|(l & _ & H1)].
  - apply cz_in in H1. lia.
  - assert (In a (slots h)) by (apply slots_in; eauto). apply cz_in in H2. lia.
Qed.
(** lists are not contained in lists *)
Lemma list_not_slot h own a r s p : I h own -> hget h a = Some (OList r s p) -> cz a (slots h) = 0.
Proof.
  intros (_ & _ & T & _) E. pose proof (cz_nonneg a (slots h)).
  destruct (Z.eq_dec (cz a (slots h)) 0); auto.
  destruct (T a) as (r' & v & E'); [apply cz_in; lia|]. congruence.
Qed.

Lemma I_upd h own own' a o o' :
  I h own -> hget h a = Some o ->
  (forall b, cz b own' + cz b (slotsof o') - (cz b own + cz b (slotsof (Some o))) =
             if Nat.eqb b a then refcnt o' - refcnt (Some o) else 0) ->
  (o' <> None -> 1 <= refcnt o') ->
  (isel (Some o) -> o' = None \/ isel o') ->
  (forall b, In b (slotsof o') -> b <> a /\ isel (hget h b)) ->
  sizeok o' ->
  I (hset h a o') own'.
Proof.
  intros (A & B & T & S) E C P K D Z. pose proof (hget_lt _ _ _ E) as L.
  assert (Cnt : forall b, refcnt (hget (hset h a o') b) = cz b own' + cz b (slots (hset h a o'))).
  { intros b. pose proof (slots_set h a o' b L) as Q. rewrite E in Q. specialize (C b). specialize (A b).
    destruct (Nat.eqb_spec b a) as [->|N].
    - rewrite hget_set_eq by auto. rewrite E in A. lia.
    - rewrite hget_set_neq by auto. lia. }
  split; [exact Cnt|]. split; [|split].
  - intros b. destruct (Nat.eq_dec b a) as [->|N].
    + rewrite hget_set_eq by auto. exact P.
    + rewrite hget_set_neq by auto. apply B.
  - intros b Hb. pose proof Hb as Hb'. apply slots_in in Hb. destruct Hb as (l & Hl).
    destruct (Nat.eq_dec b a) as [->|N].
    + rewrite hget_set_eq by auto.
      destruct (Nat.eq_dec l a) as [->|N'].
      * rewrite hget_set_eq in Hl by auto. destruct (D a Hl). congruence.
      * rewrite hget_set_neq in Hl by auto.
        assert (isel (hget h a)) by (apply T; apply slots_in; eauto).
        rewrite E in H. destruct (K H) as [->|]; auto.
        specialize (Cnt a). rewrite hget_set_eq in Cnt by auto. simpl in Cnt.
        apply cz_in in Hb'. pose proof (cz_nonneg a own'). lia.
    + rewrite hget_set_neq by auto.
      destruct (Nat.eq_dec l a) as [->|N'].
      * rewrite hget_set_eq in Hl by auto. apply D; auto.
      * rewrite hget_set_neq in Hl by auto. apply T. apply slots_in; eauto.
  - intros b. destruct (Nat.eq_dec b a) as [->|N].
    + rewrite hget_set_eq by auto. exact Z.
    + rewrite hget_set_neq by auto. apply S.
Qed.
Lemma fr_upd own h a o' : sk o' = sk (hget h a) \/ ~ reach own h a -> fr own h (hset h a o').
Proof.
  intros H x R. destruct (Nat.eq_dec a x) as [->|N].
  - destruct H as [H|H]; [|tauto].
    destruct (lt_dec x (length h)).
    + rewrite hget_set_eq; auto.
    + unfold hget. rewrite !nth_overflow; auto; rewrite ?hset_length; lia.
  - rewrite hget_set_neq; auto.
Qed.

Lemma I_alloc h own o : I h own -> refcnt (Some o) = 1 -> slotsof (Some o) = [] -> sizeok (Some o) ->
  I (h ++ [Some o]) (length h :: own) /\ forall x, (x < length h)%nat -> hget (h ++ [Some o]) x = hget h x.
Proof.
  intros (A & B & T & S) R Q Z. split.
  2:{ intros x Hx. rewrite hget_app. destruct (Nat.eqb_spec x (length h)); auto. lia. }
  assert (E : hget h (length h) = None) by (unfold hget; apply nth_overflow; lia).
  split; [|split; [|split]].
  - intros a. rewrite slots_app, Q, app_nil_r, cz_cons, hget_app, Nat.eqb_sym.
    specialize (A a). destruct (Nat.eqb_spec (length h) a) as [<-|N].
    + rewrite E in A. simpl (refcnt None) in A. lia.
    + lia.
  - intros a. rewrite hget_app. destruct (Nat.eqb a (length h)); [lia|apply B].
  - intros a. rewrite slots_app, Q, app_nil_r, hget_app. intros H.
    destruct (T a H) as (r & v & E').
    destruct (Nat.eqb_spec a (length h)); [congruence|]. rewrite E'. exists r, v; auto.
  - intros a. rewrite hget_app. destruct (Nat.eqb a (length h)); [auto|apply S].
Qed.
Lemma fr_ext own h h' : I h own -> (forall x, (x < length h)%nat -> sk (hget h' x) = sk (hget h x)) -> fr own h h'.
Proof.
  intros HI H x R. apply H. pose proof (reach_live _ _ _ HI R).
  destruct (hget h x) eqn:E; [|tauto]. eapply hget_lt; eauto.
Qed.

(** ** Element operations *)
Lemma el_alloc_ok h own v : I h own ->
  exists h', el_alloc v h = Some (Some (length h), h') /\ I h' (length h :: own) /\
    hget h' (length h) = Some (OEl 1 v) /\ length h' = S (length h) /\
    (forall x, (x < length h)%nat -> hget h' x = hget h x).
Proof.
  intros HI. exists (h ++ [Some (OEl 1 v)]). split; [reflexivity|].
  destruct (I_alloc h own (OEl 1 v) HI eq_refl eq_refl Logic.I) as (A & B).
  split; [exact A|]. split; [|split; [|exact B]].
  - rewrite hget_app, Nat.eqb_refl. reflexivity.
  - rewrite app_length. simpl. lia.
Qed.
Lemma list_alloc_ok h own n : I h own -> 0 <= n ->
  exists h', list_alloc n h = Some (Some (length h), h') /\ I h' (length h :: own) /\
    hget h' (length h) = Some (OList 1 n []) /\ length h' = S (length h) /\
    (forall x, (x < length h)%nat -> hget h' x = hget h x).
Proof.
  intros HI Hn. exists (h ++ [Some (OList 1 n [])]).
  unfold list_alloc. replace (n <? 0) with false by lia.
  split; [reflexivity|].
  destruct (I_alloc h own (OList 1 n []) HI eq_refl eq_refl) as (A & B).
  { simpl. unfold len. simpl. lia. }
  split; [exact A|]. split; [|split; [|exact B]].
  - rewrite hget_app, Nat.eqb_refl. reflexivity.
  - rewrite app_length. simpl. lia.
Qed.

Ltac czs := intros; cbn [slotsof somes flat_map app]; rewrite ?cz_app, ?cz_cons, ?cz_nil;
  repeat match goal with |- context [Nat.eqb ?a ?b] => destruct (Nat.eqb_spec a b); subst end;
  try congruence; cbn [refcnt] in *; try lia.

Lemma el_copy_ok h own a : I h own -> isel (hget h a) ->
  exists h', el_copy (Some a) h = Some (Some a, h') /\ I h' (a :: own) /\ length h' = length h /\
    (forall x, sk (hget h' x) = sk (hget h x)) /\
    (forall x, x <> a -> hget h' x = hget h x).
Proof.
  intros HI (r & v & E). unfold el_copy. rewrite E. eexists. split; [reflexivity|].
  pose proof HI as (_ & B & _). specialize (B a). rewrite E in B. cbn [refcnt] in B.
  specialize (B ltac:(discriminate)).
  split; [|split; [apply hset_length|split]].
  - eapply I_upd; eauto.
    + czs.
    + intros _. simpl. lia.
    + intros _. right. exists (r + 1), v. reflexivity.
    + simpl. tauto.
    + exact Logic.I.
  - intros x. destruct (Nat.eq_dec a x) as [->|N].
    + rewrite hget_set_eq by (eapply hget_lt; eauto). rewrite E. reflexivity.
    + rewrite hget_set_neq; auto.
  - intros x N. apply hget_set_neq; auto.
Qed.
Lemma el_free_ok h own a : I h (a :: own) -> isel (hget h a) ->
  exists h', el_free (Some a) h = Some (tt, h') /\ I h' own /\ length h' = length h /\ fr own h h' /\
    (forall x, x <> a -> hget h' x = hget h x).
Proof.
  intros HI (r & v & E). unfold el_free. rewrite E. eexists. split; [reflexivity|].
  pose proof HI as (_ & B & _). specialize (B a). rewrite E in B. cbn [refcnt] in B.
  specialize (B ltac:(discriminate)).
  split; [|split; [apply hset_length|split]].
  - eapply I_upd; eauto.
    + intros b. destruct (0 <? r - 1) eqn:Q; czs.
    + destruct (0 <? r - 1) eqn:Q; simpl; intros; try lia. tauto.
    + intros _. destruct (0 <? r - 1); [right; exists (r - 1), v; reflexivity|left; reflexivity].
    + destruct (0 <? r - 1); simpl; tauto.
    + destruct (0 <? r - 1); exact Logic.I.
  - apply fr_upd. rewrite E. destruct (0 <? r - 1) eqn:Q; [left; reflexivity|].
    right. apply sole; auto. rewrite E. simpl. lia.
  - intros x N. apply hget_set_neq; auto.
Qed.
Lemma el_free_comm h a b o : b <> a ->
  el_free (Some b) (hset h a o) =
  match el_free (Some b) h with Some (u, h') => Some (u, hset h' a o) | None => None end.
Proof.
  intros N. unfold el_free. rewrite hget_set_neq by auto.
  destruct (hget h b) as [[r v|]|]; auto. rewrite hset_comm by auto. reflexivity.
Qed.
Lemma free_els_comm p h a o : ~ In a (somes p) ->
  free_els p (hset h a o) =
  match free_els p h with Some (u, h') => Some (u, hset h' a o) | None => None end.
Proof.
  revert h. induction p as [|[b|] p IH]; intros h N; cbn [free_els]; unfold bind, ret; auto.
  - rewrite el_free_comm by (intros ->; apply N; left; reflexivity).
    destruct (el_free (Some b) h) as [[u h']|]; auto. apply IH. intros H; apply N; right; auto.
  - cbn [el_free]. unfold ret. apply IH. exact N.
Qed.

Lemma el_free_other h h' a b u : el_free (Some b) h = Some (u, h') -> b <> a -> hget h' a = hget h a.
Proof.
  unfold el_free. intros H N. destruct (hget h b) as [[r v|]|]; try discriminate. inversion H; subst.
  apply hget_set_neq; auto.
Qed.
Lemma free_els_other p h h' a u : free_els p h = Some (u, h') -> ~ In a (somes p) -> hget h' a = hget h a.
Proof.
  revert h. induction p as [|[b|] p IH]; intros h H N; cbn [free_els] in H; unfold bind, ret in H.
  - inversion H; subst; auto.
  - destruct (el_free (Some b) h) as [[u1 h1]|] eqn:E; [|discriminate].
    rewrite (IH h1); auto; [|intros X; apply N; right; auto].
    eapply el_free_other; eauto. intros ->; apply N; left; auto.
  - cbn [el_free] in H. unfold ret in H. apply (IH h); auto.
Qed.
Lemma isel_sk o o' : sk o = sk o' -> isel o -> isel o'.
Proof.
  intros H (r & v & ->). destruct o' as [[]|]; simpl in H; try discriminate. eexists _, _; reflexivity.
Qed.

Lemma free_els_ok p : forall h own, I h (somes p ++ own) -> (forall b, In b (somes p) -> isel (hget h b)) ->
  exists h', free_els p h = Some (tt, h') /\ I h' own /\ length h' = length h /\ fr own h h' /\
    (forall x, ~ In x (somes p) -> hget h' x = hget h x).
Proof.
  induction p as [|[b|] p IH]; intros h own HI HE; cbn [free_els].
  - exists h. split; [reflexivity|]. split; [exact HI|]. split; [reflexivity|]. split; [apply fr_refl|]. reflexivity.
  - destruct (el_free_ok h (somes p ++ own) b) as (h1 & E1 & I1 & L1 & F1 & X1); auto.
    { apply HE. left; reflexivity. }
    unfold bind. rewrite E1.
    destruct (IH h1 own I1) as (h2 & E2 & I2 & L2 & F2 & X2).
    { intros c Hc. eapply isel_sk; [symmetry; apply F1|apply HE; right; exact Hc].
      left. apply in_or_app; auto. }
    exists h2. split; [exact E2|]. split; [exact I2|]. split; [lia|]. split.
    + eapply fr_trans; [|exact F2]. eapply fr_incl; [|exact F1]. apply incl_appr, incl_refl.
    + intros x Hx. rewrite X2, X1; auto; intros ?; apply Hx; [left; auto|right; auto].
  - unfold bind, ret. cbn [el_free]. apply IH; auto.
Qed.

Lemma put_list_eq a r s p h r0 s0 p0 : hget h a = Some (OList r0 s0 p0) ->
  put_list a r s p h = Some (tt, hset h a (Some (OList r s p))).
Proof. intros E. unfold put_list. rewrite E. reflexivity. Qed.

(** changing the number of references to a list *)
Lemma list_ref_ok h own own' a r s p d : I h own -> hget h a = Some (OList r s p) -> 1 <= r + d ->
  (forall b, cz b own' - cz b own = if Nat.eqb b a then d else 0) ->
  I (hset h a (Some (OList (r + d) s p))) own'.
Proof.
  intros HI E R C. pose proof HI as (_ & _ & T & S).
  eapply I_upd; eauto.
  - intros b. specialize (C b). cbn [slotsof refcnt]. destruct (Nat.eqb b a); lia.
  - intros (r' & v & H). discriminate.
  - intros b Hb. assert (isel (hget h b)). { apply T, slots_in. exists a. rewrite E. exact Hb. }
    split; auto. intros ->. rewrite E in H. destruct H as (? & ? & ?). discriminate.
  - specialize (S a). rewrite E in S. exact S.
Qed.
Lemma sk_ref h a r s p r' s' : hget h a = Some (OList r s p) ->
  forall x, sk (hget (hset h a (Some (OList r' s' p))) x) = sk (hget h x).
Proof.
  intros E x. destruct (Nat.eq_dec a x) as [->|N].
  - rewrite hget_set_eq by (eapply hget_lt; eauto). rewrite E. reflexivity.
  - rewrite hget_set_neq; auto.
Qed.
(** replacing the contents of a list *)
Lemma list_slots_ok h own own' a s p s' p' : I h own -> hget h a = Some (OList 1 s p) ->
  (forall b, cz b own' + cz b (somes p') = cz b own + cz b (somes p)) ->
  (forall b, In b (somes p') -> isel (hget h b)) ->
  len p' <= s' ->
  I (hset h a (Some (OList 1 s' p'))) own'.
Proof.
  intros HI E C T L. eapply I_upd; eauto.
  - intros b. specialize (C b). cbn [slotsof refcnt]. destruct (Nat.eqb b a); lia.
  - intros _. simpl. lia.
  - intros (r' & v & H). discriminate.
  - intros b Hb. specialize (T b Hb). split; auto. intros ->. rewrite E in T. destruct T as (? & ? & ?). discriminate.
Qed.

Lemma list_ref_pos h own a r s p : I h own -> hget h a = Some (OList r s p) -> 1 <= r.
Proof.
  intros (_ & B & _) E. specialize (B a). rewrite E in B. apply B. discriminate.
Qed.
Lemma list_slots_el h own a r s p b : I h own -> hget h a = Some (OList r s p) -> In b (somes p) -> isel (hget h b).
Proof.
  intros (_ & _ & T & _) E H. apply T, slots_in. exists a. rewrite E. exact H.
Qed.
Lemma list_size_ok' h own a r s p : I h own -> hget h a = Some (OList r s p) -> len p <= s.
Proof. intros (_ & _ & _ & S) E. specialize (S a). rewrite E in S. exact S. Qed.

Lemma list_copy_ok h own a r s p : I h own -> hget h a = Some (OList r s p) ->
  exists h', list_copy (Some a) h = Some (Some a, h') /\ I h' (a :: own) /\ length h' = length h /\
    (forall x, sk (hget h' x) = sk (hget h x)).
Proof.
  intros HI E. unfold list_copy, with_list. rewrite E. unfold bind. erewrite put_list_eq by eauto.
  eexists. split; [reflexivity|]. pose proof (list_ref_pos _ _ _ _ _ _ HI E).
  split; [|split; [apply hset_length|]].
  - eapply list_ref_ok; eauto; [lia|]. czs.
  - eapply sk_ref; eauto.
Qed.
Lemma list_free_ok h own a r s p : I h (a :: own) -> hget h a = Some (OList r s p) ->
  exists h', list_free (Some a) h = Some (None, h') /\ I h' own /\ length h' = length h /\ fr own h h' /\
    (r <> 1 -> forall x, sk (hget h' x) = sk (hget h x)).
Proof.
  intros HI E. unfold list_free, with_list. rewrite E. pose proof (list_ref_pos _ _ _ _ _ _ HI E).
  destruct (0 <? r - 1) eqn:Q.
  - unfold bind. erewrite put_list_eq by eauto. eexists. split; [reflexivity|].
    split; [|split; [apply hset_length|split]].
    + replace (r - 1) with (r + -1) by lia. eapply list_ref_ok; eauto; [lia|]. czs.
    + intros x _. eapply sk_ref; eauto.
    + intros _. eapply sk_ref; eauto.
  - assert (r = 1) by lia. subst r.
    assert (Na : ~ In a (somes p)).
    { intros H1. destruct (list_slots_el _ _ _ _ _ _ _ HI E H1) as (? & ? & H2). congruence. }
    assert (I0 : I (hset h a None) (somes p ++ own)).
    { eapply I_upd; eauto.
      - intros b. rewrite cz_app, cz_cons. cbn [slotsof refcnt]. rewrite cz_nil, Nat.eqb_sym.
        destruct (Nat.eqb b a); lia.
      - tauto.
      - simpl; tauto.
      - exact Logic.I. }
    destruct (free_els_ok p _ _ I0) as (h1 & E1 & I1 & L1 & F1 & X1).
    { intros b Hb. rewrite hget_set_neq; [eapply list_slots_el; eauto|]. intros ->; tauto. }
    rewrite free_els_comm in E1 by auto.
    unfold bind. destruct (free_els p h) as [[[] h']|] eqn:E2; [|discriminate].
    inversion E1. subst h1. eexists. split; [reflexivity|]. split; [exact I1|]. split; [|split].
    + rewrite L1. apply hset_length.
    + eapply fr_trans; [|exact F1]. apply fr_upd. right. apply sole; auto. rewrite E. reflexivity.
    + congruence.
Qed.

Definition full (h : heap) (p : list (option addr)) : Prop :=
  forall e, In e p -> exists b, e = Some b /\ isel (hget h b).
Lemma full_sk h h' p : (forall b, In b (somes p) -> sk (hget h' b) = sk (hget h b)) -> full h p -> full h' p.
Proof.
  intros H F e He. destruct (F e He) as (b & -> & Hb). exists b. split; auto.
  eapply isel_sk; [|exact Hb]. symmetry. apply H. apply in_somes; auto.
Qed.
Lemma len_app {A} (p q : list A) : len (p ++ q) = len p + len q.
Proof. unfold len. rewrite app_length. lia. Qed.
Lemma len_cons {A} (x : A) q : len (x :: q) = 1 + len q.
Proof. unfold len. simpl length. lia. Qed.
Lemma len_nonneg {A} (p : list A) : 0 <= len p. Proof. unfold len; lia. Qed.

Lemma add_room_ok h own a s p e : I h (a :: e :: own) -> hget h a = Some (OList 1 s p) ->
  len p + 1 <= s -> isel (hget h e) ->
  exists h', add_room (Some a) (Some e) h = Some (Some a, h') /\ I h' (a :: own) /\
    hget h' a = Some (OList 1 s (p ++ [Some e])) /\ length h' = length h /\
    (forall x, x <> a -> hget h' x = hget h x).
Proof.
  intros HI E L H. unfold add_room, with_list. rewrite E.
  replace ((1 =? 1) && (len p + 1 <=? s)) with true by lia.
  unfold bind. erewrite put_list_eq by eauto. eexists. split; [reflexivity|].
  split; [|split; [|split]].
  - eapply list_slots_ok; eauto.
    + intros b. rewrite somes_app. cbn [somes flat_map optl]. rewrite !cz_app, !cz_cons, !cz_nil. 
      repeat match goal with |- context [Nat.eqb ?a ?b] => destruct (Nat.eqb_spec a b); subst end; lia.
    + intros b. rewrite somes_app, in_app_iff. intros [Hb|[->|[]]]; auto. eapply list_slots_el; eauto.
    + rewrite len_app, len_cons. unfold len in *. simpl (length []). lia.
  - rewrite hget_set_eq; auto. eapply hget_lt; eauto.
  - apply hset_length.
  - intros x N. apply hget_set_neq; auto.
Qed.
Lemma add_copies_ok es : forall h own a s p, I h (a :: own) -> hget h a = Some (OList 1 s p) ->
  len p + len es <= s -> full h es ->
  exists h', add_copies es (Some a) h = Some (Some a, h') /\ I h' (a :: own) /\
    hget h' a = Some (OList 1 s (p ++ es)) /\ length h' = length h /\
    (forall x, x <> a -> sk (hget h' x) = sk (hget h x)).
Proof.
  induction es as [|e es IH]; intros h own a s p HI E L F; cbn [add_copies].
  - exists h. rewrite app_nil_r. repeat (split; [solve [auto]|]). auto.
  - destruct (F e (or_introl eq_refl)) as (b & -> & Hb).
    assert (Nb : b <> a) by (intros ->; rewrite E in Hb; destruct Hb as (? & ? & ?); discriminate).
    destruct (el_copy_ok h (a :: own) b HI Hb) as (h1 & E1 & I1 & L1 & S1 & X1).
    unfold bind. rewrite E1. rewrite len_cons in L. pose proof (len_nonneg es).
    assert (Eb : isel (hget h1 b)) by (eapply isel_sk; [symmetry; apply S1|exact Hb]).
    destruct (add_room_ok h1 own a s p b) as (h2 & E2 & I2 & A2 & L2 & X2); auto; try lia.
    { eapply I_perm; [|exact I1]. apply perm_swap. }
    { rewrite X1; auto. }
    rewrite E2.
    destruct (IH h2 own a s (p ++ [Some b])) as (h3 & E3 & I3 & A3 & L3 & X3); auto.
    { rewrite len_app, len_cons. unfold len in *; simpl (length []). lia. }
    { eapply full_sk; [|intros e He; apply F; right; exact He].
      intros c Hc. rewrite X2.
      - apply S1.
      - intros ->. apply in_somes in Hc. destruct (F _ (or_intror Hc)) as (c' & Hc' & H'). inversion Hc'; subst c'.
        rewrite E in H'. destruct H' as (? & ? & ?). discriminate. }
    exists h3. rewrite <- app_assoc in A3. cbn [app] in A3.
    split; [exact E3|]. split; [exact I3|]. split; [exact A3|]. split; [lia|].
    intros x N. rewrite X3, X2, S1; auto.
Qed.

Lemma list_dup_ok h own a r s p : I h own -> hget h a = Some (OList r s p) -> full h p ->
  exists h', list_dup (Some a) h = Some (Some (length h), h') /\ I h' (length h :: own) /\
    hget h' (length h) = Some (OList 1 (len p) p) /\ length h' = S (length h) /\
    (forall x, (x < length h)%nat -> sk (hget h' x) = sk (hget h x)).
Proof.
  intros HI E F. unfold list_dup, with_list. rewrite E. unfold bind.
  destruct (list_alloc_ok h own (len p) HI (len_nonneg p)) as (h1 & E1 & I1 & A1 & L1 & X1).
  rewrite E1.
  destruct (add_copies_ok p h1 own (length h) (len p) []) as (h2 & E2 & I2 & A2 & L2 & X2); auto.
  { unfold len. simpl. lia. }
  { eapply full_sk; [|exact F]. intros b Hb. rewrite X1; auto.
    destruct (list_slots_el _ _ _ _ _ _ _ HI E Hb) as (? & ? & H2). eapply hget_lt; eauto. }
  exists h2. split; [exact E2|]. split; [exact I2|]. split; [exact A2|]. split; [lia|].
  intros x Hx. rewrite X2, X1; auto. lia.
Qed.
Lemma list_cow_ok h own a r s p : I h (a :: own) -> hget h a = Some (OList r s p) -> (r = 1 \/ full h p) ->
  exists a' h' s', list_cow (Some a) h = Some (Some a', h') /\ I h' (a' :: own) /\
    hget h' a' = Some (OList 1 s' p) /\ (length h <= length h')%nat /\
    (forall x, (x < length h)%nat -> sk (hget h' x) = sk (hget h x)) /\
    ((a' = a /\ r = 1) \/ (length h <= a')%nat).
Proof.
  intros HI E F. unfold list_cow, with_list. rewrite E.
  destruct (Z.eqb_spec r 1) as [->|N].
  - exists a, h, s. split; [reflexivity|]. split; [exact HI|]. split; [exact E|]. split; [lia|].
    split; [reflexivity|]. auto.
  - destruct F as [F|F]; [congruence|]. unfold bind. erewrite put_list_eq by eauto.
    pose proof (list_ref_pos _ _ _ _ _ _ HI E).
    set (h1 := hset h a (Some (OList (r - 1) s p))).
    assert (I1 : I h1 own).
    { unfold h1. replace (r - 1) with (r + -1) by lia. eapply list_ref_ok; eauto; [lia|]. czs. }
    assert (S1 : forall x, sk (hget h1 x) = sk (hget h x)) by (eapply sk_ref; eauto).
    assert (E1 : hget h1 a = Some (OList (r - 1) s p)) by (apply hget_set_eq; eapply hget_lt; eauto).
    assert (L1 : length h1 = length h) by apply hset_length.
    destruct (list_dup_ok h1 own a (r - 1) s p I1 E1) as (h2 & E2 & I2 & A2 & L2 & X2).
    { eapply full_sk; [|exact F]. intros; apply S1. }
    rewrite L1 in *.
    exists (length h), h2, (len p). split; [exact E2|]. split; [exact I2|]. split; [exact A2|]. split; [lia|].
    split; [|right; lia]. intros x Hx. rewrite X2; auto.
Qed.
Lemma list_grow_ok h own a r s p n : I h (a :: own) -> hget h a = Some (OList r s p) -> (r = 1 \/ full h p) ->
  0 <= n ->
  exists a' h' s', list_grow (Some a) n h = Some (Some a', h') /\ I h' (a' :: own) /\
    hget h' a' = Some (OList 1 s' p) /\ len p + n <= s' /\ (length h <= length h')%nat /\
    (forall x, (x < length h)%nat -> sk (hget h' x) = sk (hget h x)) /\
    ((a' = a /\ r = 1) \/ (length h <= a')%nat).
Proof.
  intros HI E F Hn. unfold list_grow, with_list. rewrite E. pose proof (len_nonneg p).
  pose proof (list_size_ok' _ _ _ _ _ _ HI E) as Hs.
  assert (NS : len p + n <= (len p + n + 1) * 3 / 2) by (apply Z.div_le_lower_bound; lia).
  destruct (Z.eqb_spec r 1) as [->|N].
  - cbn [andb]. destruct (len p + n <=? s) eqn:Q.
    + exists a, h, s. split; [reflexivity|]. split; [exact HI|]. split; [exact E|]. split; [lia|]. split; [lia|].
      split; [reflexivity|]. auto.
    + unfold bind. erewrite put_list_eq by eauto.
      eexists a, _, _. split; [reflexivity|]. split.
      { eapply list_slots_ok; eauto; [|lia]. intros b. eapply list_slots_el; eauto. }
      split; [apply hget_set_eq; eapply hget_lt; eauto|]. split; [exact NS|]. split; [rewrite hset_length; lia|].
      split; [|auto]. intros x _. eapply sk_ref; eauto.
  - destruct F as [F|F]; [congruence|]. cbn [andb]. cbv zeta. rewrite ?(proj2 (Z.eqb_neq r 1) N).
    set (ns := if (len p + n <=? s) && (s <? (len p + n + 1) * 3 / 2) then s else (len p + n + 1) * 3 / 2).
    assert (NS' : len p + n <= ns).
    { unfold ns. destruct (len p + n <=? s) eqn:Q1; [|exact NS].
      destruct (s <? (len p + n + 1) * 3 / 2); cbn [andb]; [|exact NS]. lia. }
    clearbody ns. unfold bind.
    destruct (list_alloc_ok h (a :: own) ns HI ltac:(lia)) as (h1 & E1 & I1 & A1 & L1 & X1).
    rewrite E1. pose proof (hget_lt _ _ _ E) as La.
    destruct (add_copies_ok p h1 (a :: own) (length h) ns []) as (h2 & E2 & I2 & A2 & L2 & X2); auto.
    { unfold len in *. simpl (length []). lia. }
    { eapply full_sk; [|exact F]. intros b Hb. rewrite X1; auto.
      destruct (list_slots_el _ _ _ _ _ _ _ HI E Hb) as (? & ? & H2). eapply hget_lt; eauto. }
    cbn [app] in A2.
    rewrite E2.
    assert (S2 : sk (hget h2 a) = SkList p) by (rewrite X2, X1, E by lia; reflexivity).
    destruct (hget h2 a) as [[|r2 s2 p2]|] eqn:A2a; try discriminate. inversion S2; subst p2.
    assert (r2 = r).
    { destruct I2 as (C2 & _ & T2 & _). pose proof HI as (C0 & _ & T0 & _). specialize (C2 a). specialize (C0 a).
      rewrite A2a in C2. rewrite E in C0. cbn [refcnt] in *. rewrite C2, C0, !cz_cons.
      replace (Nat.eqb (length h) a) with false by lia.
      assert (cz a (slots h) = 0) by (eapply list_not_slot; eauto).
      assert (cz a (slots h2) = 0).
      { pose proof (cz_nonneg a (slots h2)). destruct (Z.eq_dec (cz a (slots h2)) 0); auto.
        destruct (T2 a) as (? & ? & ?); [apply cz_in; lia|congruence]. }
      lia. }
    subst r2.
    destruct (list_free_ok h2 (length h :: own) a r s2 p) as (h3 & E3 & I3 & L3 & F3 & X3); auto.
    { eapply I_perm; [|exact I2]. apply perm_swap. }
    rewrite E3. specialize (X3 N).
    assert (A3 : sk (hget h3 (length h)) = SkList p) by (rewrite X3, A2; reflexivity).
    exists (length h), h3.
    assert (exists s3, hget h3 (length h) = Some (OList 1 s3 p) /\ len p + n <= s3).
    { exists ns. split; [|lia].
      revert E3. unfold list_free, with_list. rewrite A2a.
      replace (0 <? r - 1) with true by (pose proof (list_ref_pos _ _ _ _ _ _ HI E); lia).
      unfold bind. erewrite put_list_eq by eauto. intros E3. inversion E3.
      rewrite hget_set_neq by lia. exact A2. }
    destruct H0 as (s3 & B1 & B2). exists s3.
    split; [reflexivity|]. split; [exact I3|]. split; [exact B1|]. split; [exact B2|]. split; [lia|].
    split; [|right; lia]. intros x Hx. rewrite X3, X2, X1; auto. lia.
Qed.

(** ** Values *)
Definition elv (o : option obj) : option Z := match o with Some (OEl _ v) => Some v | _ => None end.
Definition pv (h : heap) (e : option addr) : option Z := match e with Some a => elv (hget h a) | None => None end.
Definition vals (h : heap) (p : list (option addr)) (vs : list Z) : Prop := map (pv h) p = map Some vs.
Definition lrel (h : heap) (l : option addr) (vl : option (list Z)) : Prop :=
  match l, vl with
  | None, None => True
  | Some a, Some vs => exists r s p, hget h a = Some (OList r s p) /\ vals h p vs
  | _, _ => False
  end.
Definition erel (h : heap) (e : option addr) (ve : option Z) : Prop :=
  match e, ve with
  | None, None => True
  | Some a, Some v => exists r, hget h a = Some (OEl r v)
  | _, _ => False
  end.
Definition lop (op : M (option addr)) (h : heap) (own : list addr) (vl : option (list Z)) : Prop :=
  exists l' h', op h = Some (l', h') /\ I h' (optl l' ++ own) /\ fr own h h' /\ lrel h' l' vl.
Definition eop (op : M (option addr)) (h : heap) (own : list addr) (ve : option Z) : Prop :=
  exists e' h', op h = Some (e', h') /\ I h' (optl e' ++ own) /\ fr own h h' /\ erel h' e' ve.
Definition islist (o : option obj) : Prop := exists r s p, o = Some (OList r s p).

Lemma elv_sk o o' : sk o = sk o' -> elv o = elv o'.
Proof. destruct o as [[]|], o' as [[]|]; simpl; intros H; try discriminate; auto. inversion H; auto. Qed.
Lemma vals_len h p vs : vals h p vs -> length p = length vs.
Proof. intros H. apply (f_equal (@length _)) in H. rewrite !map_length in H. exact H. Qed.
Lemma vals_full h p vs : vals h p vs -> full h p.
Proof.
  intros H e He. apply (in_map (pv h)) in He. rewrite H in He. apply in_map_iff in He.
  destruct He as (v & Hv & _). destruct e as [b|]; simpl in Hv; [|discriminate].
  exists b. split; auto. unfold elv in Hv. destruct (hget h b) as [[r w|]|]; try discriminate. exists r, w; auto.
Qed.
Lemma vals_sk h h' p vs : (forall b, In b (somes p) -> sk (hget h' b) = sk (hget h b)) -> vals h p vs -> vals h' p vs.
Proof.
  unfold vals. intros H E. rewrite <- E. apply map_ext_in. intros [b|] Hb; [|reflexivity].
  simpl. apply elv_sk, H, in_somes, Hb.
Qed.
Lemma vals_app h p q vs ws : vals h p vs -> vals h q ws -> vals h (p ++ q) (vs ++ ws).
Proof. unfold vals. intros. rewrite !map_app. congruence. Qed.
Lemma vals_cons h e r v q ws : hget h e = Some (OEl r v) -> vals h q ws -> vals h (Some e :: q) (v :: ws).
Proof. unfold vals. intros E H. cbn [map pv]. rewrite E, H. reflexivity. Qed.
Lemma vals_firstn h p vs n : vals h p vs -> vals h (firstn n p) (firstn n vs).
Proof. unfold vals. intros E. rewrite <- !firstn_map. congruence. Qed.
Lemma vals_skipn h p vs n : vals h p vs -> vals h (skipn n p) (skipn n vs).
Proof. unfold vals. intros E. rewrite <- !skipn_map. congruence. Qed.
Lemma vals_nil h : vals h [] []. Proof. reflexivity. Qed.
Lemma vals_lset h p vs i e r v : vals h p vs -> hget h e = Some (OEl r v) -> vals h (lset p i (Some e)) (lset vs i v).
Proof. unfold vals. intros E H. rewrite !lset_map, E. cbn [pv]. rewrite H. reflexivity. Qed.
Lemma vals_nth h p vs i : vals h p vs -> (i < length p)%nat ->
  exists b r, nth i p None = Some b /\ hget h b = Some (OEl r (nth i vs 0)).
Proof.
  intros E L. pose proof (vals_full _ _ _ E _ (nth_In p None L)) as (b & Hb & r & v & Hv).
  exists b, r. split; auto. rewrite Hv. repeat f_equal.
  assert (nth i (map (pv h) p) None = nth i (map Some vs) None) by (rewrite E; reflexivity).
  rewrite (nth_indep _ None (pv h None)), map_nth, Hb in H by (rewrite map_length; auto).
  rewrite (nth_indep (map Some vs) None (Some 0)), map_nth in H.
  - simpl in H. rewrite Hv in H. simpl in H. congruence.
  - rewrite map_length. rewrite <- (vals_len _ _ _ E). exact L.
Qed.
Lemma lrel_list h a vl : lrel h (Some a) vl -> islist (hget h a).
Proof. destruct vl; [|intros []]. intros (r & s & p & E & _). exists r, s, p; auto. Qed.
Lemma erel_el h a ve : erel h (Some a) ve -> isel (hget h a).
Proof. destruct ve; [|intros []]. intros (r & E). exists r, z; auto. Qed.
Lemma lrel_fr own h h' a vl : fr own h h' -> In a own -> lrel h (Some a) vl -> lrel h' (Some a) vl.
Proof.
  intros F H R. destruct vl as [vs|]; [|destruct R]. destruct R as (r & s & p & E & V).
  pose proof (F a (or_introl H)) as Q. rewrite E in Q. destruct (hget h' a) as [[|r' s' p']|] eqn:E'; try discriminate.
  inversion Q; subst p'. exists r', s', p. split; auto.
  eapply vals_sk; [|exact V]. intros b Hb. apply F. right. exists a. rewrite E. auto.
Qed.
Lemma erel_fr own h h' a ve : fr own h h' -> In a own -> erel h (Some a) ve -> erel h' (Some a) ve.
Proof.
  intros F H R. destruct ve as [v|]; [|destruct R]. destruct R as (r & E).
  pose proof (F a (or_introl H)) as Q. rewrite E in Q. destruct (hget h' a) as [[r' v'|]|] eqn:E'; try discriminate.
  inversion Q; subst v'. exists r'. exact E'.
Qed.
Lemma lrel_fro own h h' l vl : fr own h h' -> incl (optl l) own -> lrel h l vl -> lrel h' l vl.
Proof. intros F H R. destruct l; [|exact R]. eapply lrel_fr; eauto. apply H. left; auto. Qed.
Lemma erel_fro own h h' l vl : fr own h h' -> incl (optl l) own -> erel h l vl -> erel h' l vl.
Proof. intros F H R. destruct l; [|exact R]. eapply erel_fr; eauto. apply H. left; auto. Qed.
Lemma fr_ext' own0 own h h' : I h own0 -> incl own own0 ->
  (forall x, (x < length h)%nat -> sk (hget h' x) = sk (hget h x)) -> fr own h h'.
Proof. intros HI S H. eapply fr_incl; [exact S|]. eapply fr_ext; eauto. Qed.
Lemma el_lt h b : isel (hget h b) -> (b < length h)%nat.
Proof. intros (r & v & E). eapply hget_lt; eauto. Qed.
Ltac incl_tac := let x := fresh in let H := fresh in
  intros x H; cbn [optl app] in *; rewrite ?in_app_iff in *; cbn [In] in *; tauto.

Lemma islist_sk o o' : sk o = sk o' -> islist o -> islist o'.
Proof.
  intros H (r & s & p & ->). destruct o' as [[]|]; simpl in H; try discriminate. eexists _, _, _; reflexivity.
Qed.
(** freeing whatever a pointer points to *)
Lemma el_free_any h own e : I h (optl e ++ own) -> (forall b, e = Some b -> isel (hget h b)) ->
  exists h', el_free e h = Some (tt, h') /\ I h' own /\ fr own h h'.
Proof.
  intros HI HE. destruct e as [b|].
  - destruct (el_free_ok h own b HI (HE b eq_refl)) as (h' & A & B & _ & C & _). eauto.
  - exists h. split; [reflexivity|]. split; [exact HI|]. apply fr_refl.
Qed.
Lemma list_free_any h own l : I h (optl l ++ own) -> (forall b, l = Some b -> islist (hget h b)) ->
  exists h', list_free l h = Some (None, h') /\ I h' own /\ fr own h h'.
Proof.
  intros HI HE. destruct l as [b|].
  - destruct (HE b eq_refl) as (r & s & p & E).
    destruct (list_free_ok h own b _ _ _ HI E) as (h' & A & B & _ & C & _). eauto.
  - exists h. split; [reflexivity|]. split; [exact HI|]. apply fr_refl.
Qed.
Definition err_path (l e : option addr) : M (option addr) :=
  bind (el_free e) (fun _ => bind (list_free l) (fun _ => ret None)).
Lemma err_ok h own l e : I h (optl l ++ optl e ++ own) ->
  (forall b, e = Some b -> isel (hget h b)) -> (forall b, l = Some b -> islist (hget h b)) ->
  exists h', err_path l e h = Some (None, h') /\ I h' own /\ fr own h h'.
Proof.
  intros HI HE HL. unfold err_path, bind.
  destruct (el_free_any h (optl l ++ own) e) as (h1 & E1 & I1 & F1); auto.
  { eapply I_perm; [|exact HI]. rewrite !app_assoc. apply Permutation_app_tail, Permutation_app_comm. }
  rewrite E1.
  destruct (list_free_any h1 own l I1) as (h2 & E2 & I2 & F2).
  { intros b ->. eapply islist_sk; [symmetry; apply F1|apply HL; reflexivity]. left. left. reflexivity. }
  rewrite E2. exists h2. split; [reflexivity|]. split; [exact I2|].
  eapply fr_trans; [|exact F2]. eapply fr_incl; [|exact F1]. incl_tac.
Qed.
Lemma err_lop h own l e vl ve : I h (optl l ++ optl e ++ own) -> lrel h l vl -> erel h e ve ->
  lop (err_path l e) h own None.
Proof.
  intros HI RL RE. destruct (err_ok h own l e HI) as (h' & A & B & C).
  - intros b ->. eapply erel_el; eauto.
  - intros b ->. eapply lrel_list; eauto.
  - exists None, h'. split; [exact A|]. split; [exact B|]. split; [exact C|]. exact Logic.I.
Qed.

Lemma somes_in_app_l p q b : In b (somes p) -> In b (somes (p ++ q)).
Proof. rewrite somes_app, in_app_iff; auto. Qed.

Lemma list_add_lop h own l e vl ve : I h (optl l ++ optl e ++ own) -> lrel h l vl -> erel h e ve ->
  lop (list_add l e) h own (seq_add vl ve).
Proof.
  intros HI RL RE. destruct l as [a|].
  2:{ destruct vl as [vs|]; [destruct RL|]. cbn [seq_add].
      change (list_add None e) with (bind (@ret (option addr) None) (fun _ => err_path None e)).
      destruct (err_lop h own None e None ve HI RL RE) as (l' & h' & E & X). exists l', h'. split; [exact E|exact X]. }
  destruct vl as [vs|]; [|destruct RL]. destruct RL as (r & s & p & E & V).
  destruct (list_grow_ok h (optl e ++ own) a r s p 1 HI E (or_intror (vals_full _ _ _ V)) ltac:(lia))
    as (a1 & h1 & s1 & E1 & I1 & A1 & L1 & G1 & S1 & D1).
  assert (PS : forall b, In b (somes p) -> sk (hget h1 b) = sk (hget h b)).
  { intros b Hb. apply S1. eapply el_lt, list_slots_el; eauto. }
  destruct e as [b|].
  - destruct ve as [v|]; [|destruct RE]. destruct RE as (rb & Eb).
    unfold lop, list_add, bind. rewrite E1. unfold with_list. rewrite A1.
    replace (len p + 1 <=? s1) with true by lia. erewrite put_list_eq by eauto.
    eexists (Some a1), _. split; [reflexivity|].
    assert (Sb : sk (hget h1 b) = SkEl v) by (rewrite S1, Eb by (eapply hget_lt; eauto); reflexivity).
    destruct (hget h1 b) as [[rb1 vb1|]|] eqn:Eb1; try discriminate. inversion Sb; subst vb1.
    assert (Nab : b <> a1) by congruence.
    assert (Np : ~ In a1 (somes p)).
    { intros H. destruct (list_slots_el _ _ _ _ _ _ _ I1 A1 H) as (? & ? & ?). congruence. }
    split; [|split].
    + cbn [optl app]. eapply list_slots_ok; eauto.
      * intros c. rewrite somes_app. cbn [optl app somes flat_map]. rewrite !cz_app, !cz_cons, ?cz_nil. lia.
      * intros c. rewrite somes_app, in_app_iff. intros [Hc|[->|[]]]; [eapply list_slots_el; eauto|].
        exists rb1, v; auto.
      * rewrite len_app, len_cons. unfold len in *. simpl (length []). lia.
    + eapply fr_trans; [eapply fr_ext'; [exact HI|incl_tac|exact S1]|].
      apply fr_upd. right. intros R. eapply (sole h1 (optl (Some b) ++ own) a1 I1).
      * rewrite A1; reflexivity.
      * eapply reach_incl; [|exact R]. incl_tac.
    + cbn [seq_add lrel]. eexists _, _, _. split; [apply hget_set_eq; eapply hget_lt; eauto|].
      apply vals_app.
      * eapply vals_sk; [|exact V]. intros c Hc. rewrite hget_set_neq; auto. intros ->. tauto.
      * eapply vals_cons; [|apply vals_nil]. rewrite hget_set_neq by auto. exact Eb1.
  - destruct ve; [destruct RE|].
    unfold lop. destruct (err_ok h1 own (Some a1) None) as (h2 & E2 & I2 & F2).
    { exact I1. } { discriminate. } { intros ? H; inversion H; subst. eexists _, _, _; eauto. }
    exists None, h2. unfold list_add, bind at 1. rewrite E1. split; [exact E2|]. split; [exact I2|].
    split; [|exact Logic.I]. eapply fr_trans; [|exact F2]. eapply fr_ext'; [exact HI|incl_tac|exact S1].
Qed.

Lemma list_from_lop h own e ve : I h (optl e ++ own) -> erel h e ve ->
  lop (list_from e) h own (match ve with Some v => Some [v] | None => None end).
Proof.
  intros HI RE. destruct e as [b|].
  - destruct ve as [v|]; [|destruct RE].
    destruct (list_alloc_ok h (optl (Some b) ++ own) 1 HI ltac:(lia)) as (h1 & E1 & I1 & A1 & L1 & X1).
    unfold list_from. unfold lop, bind at 1. rewrite E1.
    destruct RE as (rb & Eb). pose proof (hget_lt _ _ _ Eb).
    destruct (list_add_lop h1 own (Some (length h)) (Some b) (Some []) (Some v)) as (l2 & h2 & E2 & I2 & F2 & R2).
    + exact I1.
    + exists 1, 1, []. split; auto. reflexivity.
    + exists rb. rewrite X1; auto.
    + exists l2, h2. split; [exact E2|]. split; [exact I2|]. split; [|exact R2].
      eapply fr_trans; [|exact F2]. eapply fr_ext'; [exact HI|incl_tac|]. intros x Hx. rewrite X1; auto.
  - destruct ve; [destruct RE|]. exists None, h. split; [reflexivity|]. split; [exact HI|]. split; [apply fr_refl|exact RE].
Qed.

Lemma list_drop_lop h own l vl first n : I h (optl l ++ own) -> lrel h l vl -> uint first -> uint n ->
  (forall vs, vl = Some vs -> slen vs < 2 ^ 31) ->
  lop (list_drop l first n) h own (seq_drop vl first n).
Proof.
  intros HI RL Uf Un B. destruct l as [a|].
  2:{ destruct vl; [destruct RL|]. exists None, h. split; [reflexivity|]. split; [exact HI|]. split; [apply fr_refl|exact RL]. }
  destruct vl as [vs|]; [|destruct RL]. specialize (B vs eq_refl).
  pose proof RL as RL'. destruct RL as (r & s & p & E & V).
  pose proof (vals_len _ _ _ V) as HL. unfold slen in *. unfold uint in *.
  unfold lop, list_drop, with_list. rewrite E. cbv zeta. unfold seq_drop, slen.
  assert (C : (len p <? (first + n) mod 2 ^ 32) || ((first + n) mod 2 ^ 32 <? first) = negb (first + n <=? Z.of_nat (length vs))).
  { unfold len. rewrite HL. destruct (Z.lt_ge_cases (first + n) (2 ^ 32)).
    - rewrite Z.mod_small by lia. lia.
    - replace ((first + n) mod 2 ^ 32) with (first + n - 2 ^ 32).
      + lia.
      + rewrite <- (Z.mod_small (first + n - 2 ^ 32) (2 ^ 32)) by lia.
        replace (first + n - 2 ^ 32) with (first + n + (-1) * 2 ^ 32) by ring. rewrite Z.mod_add by lia. reflexivity. }
  rewrite C. destruct (first + n <=? Z.of_nat (length vs)) eqn:Q; cbn [negb].
  2:{ destruct (list_free_ok h own a r s p HI E) as (h' & A & B' & _ & F & _).
      exists None, h'. split; [exact A|]. split; [exact B'|]. split; [exact F|]. exact Logic.I. }
  destruct (Z.eqb_spec n 0) as [->|Nn].
  { exists (Some a), h. split; [reflexivity|]. split; [exact HI|]. split; [apply fr_refl|].
    rewrite Z.add_0_r. rewrite firstn_skipn. exact RL'. }
  destruct (list_cow_ok h own a r s p HI E (or_intror (vals_full _ _ _ V)))
    as (a1 & h1 & s1 & E1 & I1 & A1 & G1 & S1 & D1).
  unfold bind at 1. rewrite E1. rewrite A1.
  set (f := Z.to_nat first). set (k := Z.to_nat n).
  assert (Ep : p = firstn f p ++ firstn k (skipn f p) ++ skipn (f + k) p).
  { rewrite <- (firstn_skipn f p) at 1. f_equal. rewrite <- (firstn_skipn k (skipn f p)) at 1. f_equal.
    clear. revert p. induction f; intros p; simpl; auto. destruct p; simpl; auto. rewrite skipn_nil. auto. }
  set (p1 := firstn f p) in *. set (p2 := firstn k (skipn f p)) in *. set (p3 := skipn (f + k) p) in *.
  assert (Hin : forall b, In b (somes p) <-> In b (somes p1) \/ In b (somes p2) \/ In b (somes p3)).
  { intros b. rewrite Ep, !somes_app, !in_app_iff. tauto. }
  assert (Hel : forall b, In b (somes p) -> isel (hget h1 b)) by (intros b Hb; eapply list_slots_el; eauto).
  assert (Na : ~ In a1 (somes p)).
  { intros H. apply Hel in H. rewrite A1 in H. destruct H as (? & ? & ?). discriminate. }
  assert (I2 : I (hset h1 a1 (Some (OList 1 s1 (p1 ++ p3)))) (somes p2 ++ a1 :: own)).
  { eapply list_slots_ok; eauto.
    - intros b. rewrite Ep. rewrite !somes_app, !cz_app, !cz_cons. lia.
    - intros b Hb. apply Hel, Hin. rewrite somes_app, in_app_iff in Hb. tauto.
    - pose proof (list_size_ok' _ _ _ _ _ _ I1 A1) as Z1. rewrite Ep in Z1. rewrite !len_app in *.
      pose proof (len_nonneg p2). lia. }
  destruct (free_els_ok p2 _ _ I2) as (h2 & E2 & I3 & L2 & F2 & X2).
  { intros b Hb. rewrite hget_set_neq; [apply Hel, Hin; auto|]. intros ->. apply Na, Hin; auto. }
  rewrite free_els_comm in E2 by (intros H; apply Na, Hin; auto).
  unfold bind. destruct (free_els p2 h1) as [[[] h1']|] eqn:E3; [|discriminate]. inversion E2 as [E4].
  assert (A1' : hget h1' a1 = hget h1 a1).
  { eapply free_els_other; [exact E3|]. intros H; apply Na, Hin; auto. }
  erewrite put_list_eq by (rewrite A1'; eauto).
  rewrite E4. exists (Some a1), h2. split; [reflexivity|]. split; [exact I3|]. split.
  - eapply fr_trans; [eapply fr_ext'; [exact HI|incl_tac|exact S1]|].
    eapply fr_trans; [apply fr_upd; right; eapply sole; [exact I1|rewrite A1; reflexivity]|].
    eapply fr_incl; [|exact F2]. incl_tac.
  - eapply lrel_fr; [exact F2|left; reflexivity|].
    eexists _, _, _. split; [apply hget_set_eq; eapply hget_lt; eauto|].
    eapply vals_sk with (h := h).
    + intros b Hb. assert (Hb' : In b (somes p)) by (apply Hin; rewrite somes_app, in_app_iff in Hb; tauto).
      rewrite hget_set_neq by (intros ->; tauto). apply S1. eapply el_lt, list_slots_el; eauto.
    + apply vals_app; [apply vals_firstn; exact V|].
      replace (Z.to_nat (first + n)) with (f + k)%nat by lia. apply vals_skipn. exact V.
Qed.

Lemma list_clear_lop h own l vl : I h (optl l ++ own) -> lrel h l vl ->
  (forall vs, vl = Some vs -> slen vs < 2 ^ 31) ->
  lop (list_clear l) h own (match vl with Some _ => Some [] | None => None end).
Proof.
  intros HI RL B. destruct l as [a|].
  2:{ destruct vl; [destruct RL|]. exists None, h. split; [reflexivity|]. split; [exact HI|]. split; [apply fr_refl|exact RL]. }
  destruct vl as [vs|]; [|destruct RL]. pose proof RL as RL'. destruct RL as (r & s & p & E & V).
  pose proof (vals_len _ _ _ V) as HL. specialize (B vs eq_refl). unfold slen in B.
  unfold lop, list_clear, with_list. rewrite E.
  destruct (list_drop_lop h own (Some a) (Some vs) 0 (len p) HI RL') as (l' & h' & X).
  { unfold uint; lia. } { unfold uint, len; lia. } { intros ? H; inversion H; subst. exact B. }
  exists l', h'. replace (Some []) with (seq_drop (Some vs) 0 (len p)); [exact X|].
  unfold seq_drop, slen, len. rewrite HL. replace (0 + Z.of_nat (length vs) <=? Z.of_nat (length vs)) with true by lia.
  cbn [Z.to_nat firstn app]. f_equal. apply skipn_all2. lia.
Qed.

Lemma full_app h p q : full h (p ++ q) <-> full h p /\ full h q.
Proof.
  unfold full. split.
  - intros H. split; intros e He; apply H; apply in_or_app; auto.
  - intros (A & B) e He. apply in_app_or in He. destruct He; auto.
Qed.
Lemma full_firstn h p n : full h p -> full h (firstn n p) /\ full h (skipn n p).
Proof. intros H. rewrite <- (firstn_skipn n p) in H. apply full_app in H. exact H. Qed.

Lemma list_insert_lop h own l e vl ve pos : I h (optl l ++ optl e ++ own) -> lrel h l vl -> erel h e ve -> uint pos ->
  lop (list_insert l pos e) h own (seq_insert vl pos ve).
Proof.
  intros HI RL RE U.
  pose proof (err_lop h own l e vl ve HI RL RE) as ERR.
  destruct l as [a|].
  2:{ destruct vl as [vs|]; [destruct RL|]. exact ERR. }
  destruct vl as [vs|]; [|destruct RL].
  destruct e as [b|].
  2:{ destruct ve as [v|]; [destruct RE|]. exact ERR. }
  destruct ve as [v|]; [|destruct RE]. destruct RL as (r & s & p & E & V). destruct RE as (rb & Eb).
  pose proof (vals_len _ _ _ V) as HL. unfold uint in U.
  unfold lop, list_insert, with_list. rewrite E. unfold seq_insert, slen.
  replace (pos <=? Z.of_nat (length vs)) with (negb (len p <? pos)) by (unfold len; lia).
  destruct (len p <? pos) eqn:Q; cbn [negb]; [exact ERR|].
  set (k := Z.to_nat pos). cbv zeta.
  assert (Nab : b <> a) by congruence.
  assert (Hel : forall c, In c (somes p) -> isel (hget h c)) by (intros c Hc; eapply list_slots_el; eauto).
  assert (Na : ~ In a (somes p)).
  { intros H. apply Hel in H. rewrite E in H. destruct H as (? & ? & ?). discriminate. }
  pose proof (vals_full _ _ _ V) as FL. destruct (full_firstn h p k FL) as (FL1 & FL2).
  assert (Hin : forall c, In c (somes p) <-> In c (somes (firstn k p)) \/ In c (somes (skipn k p))).
  { intros c. rewrite <- (firstn_skipn k p) at 1. rewrite somes_app, in_app_iff. tauto. }
  assert (Lk : len (firstn k p) + len (skipn k p) = len p) by (rewrite <- len_app, firstn_skipn; reflexivity).
  destruct ((r =? 1) && (len p <? s)) eqn:Q2.
  - assert (r = 1) by lia. subst r. unfold bind. erewrite put_list_eq by eauto.
    eexists (Some a), _. split; [reflexivity|]. split; [|split].
    + cbn [optl app]. eapply list_slots_ok; eauto.
      * intros c.
        assert (Hc : cz c (somes p) = cz c (somes (firstn k p)) + cz c (somes (skipn k p)))
          by (rewrite <- cz_app, <- somes_app, firstn_skipn; reflexivity).
        rewrite !somes_app.
        change (somes (Some b :: skipn k p)) with (b :: somes (skipn k p)).
        cbn [optl app]. rewrite !cz_app, !cz_cons. lia.
      * intros c. rewrite somes_app. change (somes (Some b :: skipn k p)) with (b :: somes (skipn k p)).
        rewrite in_app_iff. cbn [In]. intros [Hc|[<-|Hc]]; [apply Hel, Hin; auto|exists rb, v; auto|apply Hel, Hin; auto].
      * rewrite len_app, len_cons. lia.
    + apply fr_upd. right. intros R. eapply (sole h (optl (Some b) ++ own) a HI).
      * rewrite E; reflexivity.
      * eapply reach_incl; [|exact R]. incl_tac.
    + eexists _, _, _. split; [apply hget_set_eq; eapply hget_lt; eauto|].
      assert (X : forall c, In c (somes p) -> sk (hget (hset h a (Some (OList 1 s (firstn k p ++ Some b :: skipn k p)))) c) = sk (hget h c)).
      { intros c Hc. rewrite hget_set_neq; auto. intros ->; tauto. }
      apply vals_app.
      * eapply vals_sk; [intros c Hc; apply X, Hin; auto|]. apply vals_firstn; auto.
      * eapply vals_cons; [rewrite hget_set_neq by auto; exact Eb|].
        eapply vals_sk; [intros c Hc; apply X, Hin; auto|]. apply vals_skipn; auto.
  - unfold bind. pose proof (len_nonneg p). cbn [optl app] in HI.
    destruct (list_alloc_ok h _ (len p + 1) HI ltac:(lia)) as (h1 & E1 & I1 & A1 & L1 & X1). rewrite E1.
    pose proof (hget_lt _ _ _ E) as La. pose proof (hget_lt _ _ _ Eb) as Lb.
    assert (Lc : forall c, In c (somes p) -> (c < length h)%nat) by (intros c Hc; apply el_lt, Hel, Hc).
    pose proof (len_nonneg (firstn k p)). pose proof (len_nonneg (skipn k p)).
    destruct (add_copies_ok (firstn k p) h1 (a :: b :: own) (length h) (len p + 1) []) as (h2 & E2 & I2 & A2 & L2 & X2); auto.
    { unfold len at 1. simpl (length []). lia. }
    { eapply full_sk; [|exact FL1]. intros c Hc. rewrite X1; auto. apply Lc, Hin; auto. }
    rewrite E2. cbn [app] in A2.
    assert (S2 : forall c, (c < length h)%nat -> sk (hget h2 c) = sk (hget h c)).
    { intros c Hc. rewrite X2, X1; auto. lia. }
    destruct (add_room_ok h2 (a :: own) (length h) (len p + 1) (firstn k p) b) as (h3 & E3 & I3 & A3 & L3 & X3); auto.
    { eapply I_perm; [|exact I2]. apply perm_skip, perm_swap. }
    { lia. }
    { eapply isel_sk; [symmetry; apply S2; auto|]. exists rb, v; auto. }
    rewrite E3.
    assert (S3 : forall c, (c < length h)%nat -> sk (hget h3 c) = sk (hget h c)).
    { intros c Hc. rewrite X3, S2; auto. lia. }
    destruct (add_copies_ok (skipn k p) h3 (a :: own) (length h) (len p + 1) (firstn k p ++ [Some b])) as (h4 & E4 & I4 & A4 & L4 & X4); auto.
    { rewrite len_app, len_cons. unfold len at 2. simpl (length []). lia. }
    { eapply full_sk; [|exact FL2]. intros c Hc. apply S3. apply Lc, Hin; auto. }
    rewrite E4.
    assert (S4 : forall c, (c < length h)%nat -> sk (hget h4 c) = sk (hget h c)).
    { intros c Hc. rewrite X4, S3; auto. lia. }
    destruct (list_free_any h4 (length h :: own) (Some a)) as (h5 & E5 & I5 & F5).
    { eapply I_perm; [|exact I4]. apply perm_swap. }
    { intros c Hc. inversion Hc; subst c. eapply islist_sk; [symmetry; apply S4; auto|]. eexists _, _, _; eauto. }
    rewrite E5. exists (Some (length h)), h5. split; [reflexivity|]. split; [exact I5|]. split.
    + eapply fr_trans; [eapply fr_ext'; [exact HI| |exact S4]; incl_tac|]. eapply fr_incl; [|exact F5]. incl_tac.
    + eapply lrel_fr; [exact F5|left; reflexivity|].
      eexists _, _, _. split; [exact A4|]. rewrite <- app_assoc. cbn [app].
      apply vals_app.
      * eapply vals_sk; [intros c Hc; apply S4, Lc, Hin; auto|]. apply vals_firstn; auto.
      * assert (Sb : sk (hget h4 b) = SkEl v) by (rewrite S4, Eb by auto; reflexivity).
        destruct (hget h4 b) as [[rb1 vb1|]|] eqn:Eb1; try discriminate. inversion Sb; subst vb1.
        eapply vals_cons; [exact Eb1|].
        eapply vals_sk; [intros c Hc; apply S4, Lc, Hin; auto|]. apply vals_skipn; auto.
Qed.

Lemma list_get_eop h own l vl i : I h own -> incl (optl l) own -> lrel h l vl ->
  eop (list_get_at l i) h own (seq_get vl i).
Proof.
  intros HI HO RL. destruct l as [a|].
  2:{ destruct vl; [destruct RL|]. exists None, h. split; [reflexivity|]. split; [exact HI|]. split; [apply fr_refl|exact RL]. }
  destruct vl as [vs|]; [|destruct RL]. destruct RL as (r & s & p & E & V).
  unfold eop, list_get_at, with_list. rewrite E. unfold seq_get.
  replace (valid_pos vs i) with (index_ok p i) by (unfold valid_pos, index_ok, slen, len; rewrite (vals_len _ _ _ V); reflexivity).
  destruct (index_ok p i) eqn:Q.
  - unfold index_ok, len in Q. destruct (vals_nth h p vs (Z.to_nat i) V ltac:(lia)) as (b & rb & Hb & Eb).
    rewrite Hb. destruct (el_copy_ok h own b HI) as (h1 & E1 & I1 & L1 & S1 & X1); [eexists _, _; exact Eb|].
    exists (Some b), h1. split; [exact E1|]. split; [exact I1|]. split; [intros x _; apply S1|].
    rewrite (nth_error_nth' vs 0) by (rewrite <- (vals_len _ _ _ V); lia).
    specialize (S1 b). rewrite Eb in S1. destruct (hget h1 b) as [[r1 v1|]|] eqn:E2; try discriminate.
    inversion S1; subst. exists r1; exact E2.
  - exists None, h. split; [reflexivity|]. split; [exact HI|]. split; [apply fr_refl|exact Logic.I].
Qed.

Lemma somes_lset p i e b : (i < length p)%nat ->
  cz b (somes (lset p i e)) + cz b (optl (nth i p None)) = cz b (somes p) + cz b (optl e).
Proof.
  revert i. induction p as [|c p IH]; intros [|i] H; simpl in H; try lia.
  - cbn [lset nth]. unfold somes. cbn [flat_map]. rewrite !cz_app. lia.
  - cbn [lset nth]. specialize (IH i ltac:(lia)). unfold somes in *. cbn [flat_map]. rewrite !cz_app. lia.
Qed.
Lemma in_lset {A} (p : list A) i e x : In x (lset p i e) -> x = e \/ In x p.
Proof.
  revert i. induction p; intros [|i]; simpl; intros H; auto; destruct H; auto. apply IHp in H. tauto.
Qed.

(** replacing one slot; the list may have empty slots if it has a single reference *)
Lemma list_set_raw h own a e r s p i : I h (a :: e :: own) -> hget h a = Some (OList r s p) ->
  index_ok p i = true -> (r = 1 \/ full h p) -> isel (hget h e) ->
  exists a' h' r' s', list_set (Some a) i (Some e) h = Some (Some a', h') /\ I h' (a' :: own) /\
    fr own h h' /\ hget h' a' = Some (OList r' s' (lset p (Z.to_nat i) (Some e))) /\
    (forall b, In b (somes (lset p (Z.to_nat i) (Some e))) -> sk (hget h' b) = sk (hget h b)) /\
    (r' = 1 \/ full h p).
Proof.
  intros HI E Q F He. pose proof Q as Q'. unfold index_ok, len in Q'. set (k := Z.to_nat i).
  assert (Lk : (k < length p)%nat) by (unfold k; lia).
  unfold list_set, with_list. rewrite E, Q. cbn [negb]. fold k.
  set (kont := bind (list_cow (Some a)) _).
  assert (K : nth k p None <> Some e ->
    exists a' h' r' s', kont h = Some (Some a', h') /\ I h' (a' :: own) /\
    fr own h h' /\ hget h' a' = Some (OList r' s' (lset p k (Some e))) /\
    (forall b, In b (somes (lset p k (Some e))) -> sk (hget h' b) = sk (hget h b)) /\
    (r' = 1 \/ full h p)).
  { intros Ne. destruct (list_cow_ok h (e :: own) a r s p HI E F) as (a1 & h1 & s1 & E1 & I1 & A1 & G1 & S1 & D1).
    unfold kont, bind at 1. rewrite E1. unfold with_list. rewrite A1. fold k.
    assert (Hel : forall b, In b (somes p) -> isel (hget h b)) by (intros b Hb; eapply list_slots_el; eauto).
    assert (Hel1 : forall b, In b (somes p) -> isel (hget h1 b)) by (intros b Hb; eapply list_slots_el; eauto).
    assert (He1 : isel (hget h1 e)) by (eapply isel_sk; [symmetry; apply S1, el_lt, He|exact He]).
    assert (Na : forall b, isel (hget h1 b) -> b <> a1) by (intros b (? & ? & Hb) ->; congruence).
    set (old := nth k p None) in *.
    assert (Ho : forall b, old = Some b -> In b (somes p)).
    { intros b Hb. apply in_somes. rewrite <- Hb. apply nth_In; auto. }
    assert (Hl : forall b, In b (somes (lset p k (Some e))) -> b = e \/ In b (somes p)).
    { intros b Hb. apply in_somes in Hb. apply in_lset in Hb. destruct Hb as [Hb|Hb]; [left; congruence|right; apply in_somes; auto]. }
    assert (I2 : I (hset h1 a1 (Some (OList 1 s1 (lset p k (Some e))))) (optl old ++ a1 :: own)).
    { eapply list_slots_ok; eauto.
      - intros b. pose proof (somes_lset p k (Some e) b Lk) as C. fold old in C. cbn [optl] in C.
        rewrite !cz_cons, ?cz_nil in *. rewrite !cz_app, !cz_cons. lia.
      - intros b Hb. destruct (Hl b Hb) as [->|]; auto.
      - pose proof (list_size_ok' _ _ _ _ _ _ I1 A1). unfold len in *. rewrite lset_length. auto. }
    destruct (el_free_any _ _ _ I2) as (h2 & E2 & I3 & F2).
    { intros b Hb. rewrite hget_set_neq; [apply Hel1; auto|]. apply not_eq_sym, Na, Hel1; auto. }
    assert (EF : exists h1', el_free old h1 = Some (tt, h1') /\ hget h1' a1 = hget h1 a1 /\
                  h2 = hset h1' a1 (Some (OList 1 s1 (lset p k (Some e))))).
    { destruct old as [b|] eqn:Eo.
      - rewrite el_free_comm in E2 by (apply Na, Hel1; auto).
        destruct (el_free (Some b) h1) as [[[] h1']|] eqn:E3; [|discriminate]. inversion E2.
        exists h1'. split; [reflexivity|]. split; [|reflexivity]. eapply el_free_other; [exact E3|]. apply Na, Hel1; auto.
      - cbn [el_free] in *. unfold ret in *. exists h1. inversion E2. auto. }
    destruct EF as (h1' & E3 & A1' & ->).
    unfold bind. rewrite E3. erewrite put_list_eq by (rewrite A1'; eauto).
    eexists a1, _, 1, s1. split; [reflexivity|]. split; [exact I3|]. split; [|split; [|split]].
    - eapply fr_trans; [eapply fr_ext'; [exact HI| |exact S1]; incl_tac|].
      eapply fr_trans; [apply fr_upd; right; intros R; eapply (sole h1 (e :: own) a1 I1);
                        [rewrite A1; reflexivity|eapply reach_incl; [|exact R]; incl_tac]|].
      eapply fr_incl; [|exact F2]. incl_tac.
    - apply hget_set_eq. eapply hget_lt. rewrite A1'. exact A1.
    - intros b Hb. rewrite F2.
      + rewrite hget_set_neq by (apply not_eq_sym, Na; destruct (Hl b Hb) as [->|]; auto).
        apply S1. destruct (Hl b Hb) as [->|]; apply el_lt; auto.
      + right. exists a1. split; [left; reflexivity|]. rewrite hget_set_eq by (eapply hget_lt; eauto). exact Hb.
    - auto. }
  destruct (nth k p None) as [b|] eqn:En; [|apply K; congruence].
  destruct (Nat.eqb_spec b e) as [->|N]; [|apply K; congruence].
  clear K kont.
  destruct (el_free_ok h (a :: own) e) as (h1 & E1 & I1 & L1 & F1 & X1); auto.
  { eapply I_perm; [|exact HI]. apply perm_swap. }
  assert (El : lset p k (Some e) = p) by (rewrite <- En; apply lset_same).
  rewrite El. unfold bind. rewrite E1.
  exists a, h1, r, s. split; [reflexivity|]. split; [exact I1|]. split; [|split; [|split]].
  - eapply fr_incl; [|exact F1]. incl_tac.
  - rewrite X1; auto. intros ->. rewrite E in He. destruct He as (? & ? & ?); discriminate.
  - intros b Hb. apply F1. right. exists a. rewrite E. split; [left; reflexivity|exact Hb].
  - destruct F; auto.
Qed.

Lemma lset_upd_at vs i v : valid_pos vs i = true -> lset vs (Z.to_nat i) v = upd_at vs i v.
Proof. unfold valid_pos, slen, upd_at. intros H. apply lset_app. lia. Qed.
Lemma index_valid h p vs i : vals h p vs -> index_ok p i = valid_pos vs i.
Proof. intros V. unfold valid_pos, index_ok, slen, len. rewrite (vals_len _ _ _ V). reflexivity. Qed.
Lemma vals_lset_sk h h' p q vs k e r v : vals h p vs -> hget h e = Some (OEl r v) ->
  q = lset p k (Some e) ->
  (forall b, In b (somes q) -> sk (hget h' b) = sk (hget h b)) -> vals h' q (lset vs k v).
Proof. intros V E -> S. eapply vals_sk; [exact S|]. eapply vals_lset; eauto. Qed.

Lemma list_set_lop h own l e vl ve i : I h (optl l ++ optl e ++ own) -> lrel h l vl -> erel h e ve ->
  lop (list_set l i e) h own (seq_set vl i ve).
Proof.
  intros HI RL RE. pose proof (err_lop h own l e vl ve HI RL RE) as ERR.
  destruct l as [a|].
  2:{ destruct vl as [vs|]; [destruct RL|]. exact ERR. }
  destruct vl as [vs|]; [|destruct RL].
  destruct e as [b|].
  2:{ destruct ve as [v|]; [destruct RE|]. exact ERR. }
  destruct ve as [v|]; [|destruct RE]. destruct RL as (r & s & p & E & V). destruct RE as (rb & Eb).
  unfold seq_set. rewrite <- (index_valid _ _ _ _ V). destruct (index_ok p i) eqn:Q.
  - destruct (list_set_raw h own a b r s p i) as (a' & h' & r' & s' & E1 & I1 & F1 & A1 & S1 & _); auto.
    { right. eapply vals_full; eauto. } { eexists _, _; eauto. }
    exists (Some a'), h'. split; [exact E1|]. split; [exact I1|]. split; [exact F1|].
    eexists _, _, _. split; [exact A1|]. rewrite <- lset_upd_at by (rewrite <- (index_valid _ _ _ _ V); exact Q).
    eapply vals_lset_sk; eauto.
  - unfold lop, list_set, with_list. rewrite E, Q. exact ERR.
Qed.

(** taking an element out of a slot *)
Lemma list_take_raw h own a r s p b i : I h (a :: own) -> hget h a = Some (OList r s p) ->
  index_ok p i = true -> nth (Z.to_nat i) p None = Some b ->
  exists h' p', list_take (Some a) i h = Some (Some b, h') /\ I h' (a :: b :: own) /\
    hget h' a = Some (OList r s p') /\
    (forall x, x <> a -> sk (hget h' x) = sk (hget h x)) /\
    ((r = 1 /\ p' = lset p (Z.to_nat i) None) \/ (r <> 1 /\ p' = p)) /\ isel (hget h b).
Proof.
  intros HI E Q Hb. pose proof Q as Q'. unfold index_ok, len in Q'. set (k := Z.to_nat i) in *.
  assert (Lk : (k < length p)%nat) by (unfold k; lia).
  assert (Hin : In b (somes p)) by (apply in_somes; rewrite <- Hb; apply nth_In; auto).
  assert (He : isel (hget h b)) by (eapply list_slots_el; eauto).
  assert (Nb : b <> a) by (intros ->; rewrite E in He; destruct He as (? & ? & ?); discriminate).
  unfold list_take, with_list. rewrite E, Q. cbn [negb].
  destruct (Z.eqb_spec r 1) as [->|N]; cbn [negb].
  - fold k. unfold bind. erewrite put_list_eq by eauto. rewrite Hb.
    eexists _, _. split; [reflexivity|]. split; [|split; [|split; [|split]]].
    + eapply list_slots_ok; eauto.
      * intros c. pose proof (somes_lset p k None c Lk) as C. rewrite Hb in C. cbn [optl] in C.
        rewrite !cz_cons, ?cz_nil in *. lia.
      * intros c Hc. apply in_somes, in_lset in Hc. destruct Hc as [Hc|Hc]; [discriminate|].
        eapply list_slots_el; eauto. apply in_somes; auto.
      * pose proof (list_size_ok' _ _ _ _ _ _ HI E). unfold len in *. rewrite lset_length. auto.
    + apply hget_set_eq. eapply hget_lt; eauto.
    + intros x Hx. rewrite hget_set_neq; auto.
    + left. auto.
    + exact He.
  - unfold list_get_at, with_list. rewrite E, Q. fold k. rewrite Hb.
    destruct (el_copy_ok h (a :: own) b HI He) as (h1 & E1 & I1 & L1 & S1 & X1).
    exists h1, p. split; [exact E1|]. split; [eapply I_perm; [apply perm_swap|exact I1]|].
    split; [rewrite X1; auto|]. split; [intros; apply S1|]. split; [right; auto|exact He].
Qed.
Lemma list_take_bad l i h : (forall a, l = Some a -> exists r s p, hget h a = Some (OList r s p) /\ index_ok p i = false) ->
  list_take l i h = Some (None, h).
Proof.
  intros H. destruct l as [a|]; [|reflexivity]. destruct (H a eq_refl) as (r & s & p & E & Q).
  unfold list_take, with_list. rewrite E, Q. reflexivity.
Qed.

Lemma to_int_ok p i : uint i -> len p < 2 ^ 31 ->
  index_ok p (to_int i) = ((0 <=? i) && (i <? len p)) /\ (i < len p -> to_int i = i).
Proof.
  unfold uint, to_int, index_ok. intros. pose proof (len_nonneg p). destruct (i <? 2 ^ 31) eqn:Q; lia.
Qed.
Lemma list_set_none i e : list_set None i e = err_path None e.
Proof. reflexivity. Qed.

Lemma list_swap_lop h own l vl i j : I h (optl l ++ own) -> lrel h l vl -> uint i -> uint j ->
  (forall vs, vl = Some vs -> slen vs < 2 ^ 31) ->
  lop (list_swap l i j) h own (seq_swap vl i j).
Proof.
  intros HI RL Ui Uj B. unfold list_swap, seq_swap. destruct (Z.eqb_spec i j) as [->|Nij].
  { exists l, h. split; [reflexivity|]. split; [exact HI|]. split; [apply fr_refl|exact RL]. }
  destruct l as [a|].
  2:{ destruct vl; [destruct RL|]. exists None, h. split; [reflexivity|]. split; [exact HI|]. split; [apply fr_refl|exact RL]. }
  destruct vl as [vs|]; [|destruct RL]. specialize (B vs eq_refl).
  pose proof RL as RL'. destruct RL as (r & s & p & E & V). pose proof (vals_len _ _ _ V) as HL.
  unfold slen in B. assert (Bp : len p < 2 ^ 31) by (unfold len; lia).
  destruct (to_int_ok p i Ui Bp) as (Qi & Ti). destruct (to_int_ok p j Uj Bp) as (Qj & Tj).
  assert (Vi : valid_pos vs i = index_ok p (to_int i)) by (rewrite Qi; unfold valid_pos, slen, len; rewrite HL; reflexivity).
  assert (Vj : valid_pos vs j = index_ok p (to_int j)) by (rewrite Qj; unfold valid_pos, slen, len; rewrite HL; reflexivity).
  rewrite Vi, Vj. unfold uint in *.
  destruct (index_ok p (to_int i)) eqn:Oi; cbn [andb].
  2:{ (* first position invalid *)
      unfold lop, bind. rewrite (list_take_bad (Some a)) by (intros ? X; inversion X; subst; eauto 6).
      destruct (index_ok p (to_int j)) eqn:Oj.
      - destruct (vals_nth h p vs (Z.to_nat (to_int j)) V) as (b & rb & Hb & Eb).
        { unfold index_ok, len in Oj. lia. }
        destruct (list_take_raw h own a r s p b (to_int j) HI E Oj Hb) as (h1 & p1 & E1 & I1 & A1 & S1 & D1 & He).
        rewrite E1.
        assert (Nb : b <> a) by congruence.
        destruct (err_ok h1 own (Some a) (Some b) I1) as (h2 & E2 & I2 & F2).
        { intros ? X; inversion X; subst. eapply isel_sk; [symmetry; apply S1; auto|exact He]. }
        { intros ? X; inversion X; subst. eexists _, _, _; eauto. }
        assert (EX : list_set (Some a) (to_int i) (Some b) h1 = err_path (Some a) (Some b) h1).
        { unfold list_set, with_list. rewrite A1.
          replace (index_ok p1 (to_int i)) with false; [reflexivity|].
          destruct D1 as [(_ & ->)|(_ & ->)]; auto. unfold index_ok, len in *. rewrite lset_length. auto. }
        rewrite EX, E2. rewrite list_set_none. exists None, h2. split; [reflexivity|]. split; [exact I2|].
        split; [|exact Logic.I]. eapply fr_trans; [|exact F2].
        intros x R. destruct (Nat.eq_dec x a) as [->|Nx]; [|apply S1; auto].
        destruct D1 as [(-> & _)|(_ & ->)].
        + exfalso. eapply sole; [exact HI| |exact R]. rewrite E; reflexivity.
        + rewrite A1, E. reflexivity.
      - rewrite (list_take_bad (Some a)) by (intros ? X; inversion X; subst; eauto 6).
        destruct (err_ok h own (Some a) None HI) as (h2 & E2 & I2 & F2).
        { discriminate. } { intros ? X; inversion X; subst. eexists _, _, _; eauto. }
        change (list_set (Some a) (to_int i) None h) with (err_path (Some a) None h). rewrite E2.
        rewrite list_set_none. exists None, h2. split; [reflexivity|]. split; [exact I2|]. split; [exact F2|exact Logic.I]. }
  specialize (Ti ltac:(lia)). rewrite Ti in *.
  destruct (vals_nth h p vs (Z.to_nat i) V) as (b1 & rb1 & Hb1 & Eb1). { unfold index_ok, len in Oi. lia. }
  destruct (list_take_raw h own a r s p b1 i HI E Oi Hb1) as (h1 & p1 & E1 & I1 & A1 & S1 & D1 & He1).
  assert (Nb1 : b1 <> a) by congruence.
  assert (Lp1 : length p1 = length p) by (destruct D1 as [(_ & ->)|(_ & ->)]; auto; apply lset_length).
  assert (He1' : isel (hget h1 b1)) by (eapply isel_sk; [symmetry; apply S1; auto|exact He1]).
  assert (FR1 : fr own h h1).
  { intros x R. destruct (Nat.eq_dec x a) as [->|Nx]; [|apply S1; auto].
    destruct D1 as [(-> & _)|(_ & ->)].
    - exfalso. eapply sole; [exact HI| |exact R]. rewrite E; reflexivity.
    - rewrite A1, E. reflexivity. }
  destruct (index_ok p (to_int j)) eqn:Oj.
  2:{ unfold lop, bind. rewrite E1.
      rewrite (list_take_bad (Some a)).
      2:{ intros ? X; inversion X; subst. exists r, s, p1. split; auto. unfold index_ok, len in *. rewrite Lp1. auto. }
      destruct (err_ok h1 (b1 :: own) (Some a) None I1) as (h2 & E2 & I2 & F2).
      { discriminate. } { intros ? X; inversion X; subst. eexists _, _, _; eauto. }
      change (list_set (Some a) i None h1) with (err_path (Some a) None h1). rewrite E2. rewrite list_set_none.
      destruct (err_ok h2 own None (Some b1) I2) as (h3 & E3 & I3 & F3).
      { intros ? X; inversion X; subst. eapply isel_sk; [symmetry; apply F2; left; left; auto|exact He1']. } { discriminate. }
      rewrite E3. exists None, h3. split; [reflexivity|]. split; [exact I3|]. split; [|exact Logic.I].
      eapply fr_trans; [exact FR1|]. eapply fr_trans; [|exact F3]. eapply fr_incl; [|exact F2]. incl_tac. }
  specialize (Tj ltac:(lia)). rewrite Tj in *.
  destruct (vals_nth h p vs (Z.to_nat j) V) as (b2 & rb2 & Hb2 & Eb2). { unfold index_ok, len in Oj. lia. }
  assert (Nb2 : b2 <> a) by congruence.
  assert (Nn : Z.to_nat i <> Z.to_nat j) by (unfold index_ok in *; lia).
  assert (Hb2' : nth (Z.to_nat j) p1 None = Some b2).
  { destruct D1 as [(_ & ->)|(_ & ->)]; auto. rewrite lset_nth_neq by auto. exact Hb2. }
  assert (Oj1 : index_ok p1 j = true) by (unfold index_ok, len in *; rewrite Lp1; auto).
  destruct (list_take_raw h1 (b1 :: own) a r s p1 b2 j I1 A1 Oj1 Hb2') as (h2 & p2 & E2 & I2 & A2 & S2 & D2 & He2).
  assert (Lp2 : length p2 = length p) by (destruct D2 as [(_ & ->)|(_ & ->)]; rewrite ?lset_length; auto).
  unfold lop, bind. rewrite E1, E2.
  assert (FR2 : fr (b1 :: own) h1 h2).
  { intros x R. destruct (Nat.eq_dec x a) as [->|Nx]; [|apply S2; auto].
    destruct D2 as [(-> & _)|(_ & ->)].
    - exfalso. eapply sole; [exact I1| |exact R]. rewrite A1; reflexivity.
    - rewrite A2, A1. reflexivity. }
  assert (S12 : forall x, x <> a -> sk (hget h2 x) = sk (hget h x)) by (intros; rewrite S2, S1; auto).
  assert (FF : r = 1 \/ full h2 p2).
  { destruct D2 as [(-> & _)|(N & ->)]; [auto|]. destruct D1 as [(? & _)|(_ & ->)]; [congruence|]. right.
    eapply full_sk; [|eapply vals_full; exact V]. intros c Hc. apply S12.
    intros ->. destruct (list_slots_el _ _ _ _ _ _ _ HI E Hc) as (? & ? & ?). congruence. }
  assert (Oi2 : index_ok p2 i = true) by (unfold index_ok, len in *; rewrite Lp2; auto).
  destruct (list_set_raw h2 (b1 :: own) a b2 r s p2 i) as (a3 & h3 & r3 & s3 & E3 & I3 & F3 & A3 & S3 & D3); auto.
  { eapply isel_sk; [symmetry; apply S2; auto|exact He2]. }
  rewrite E3.
  assert (Ob : forall x, In x (somes p) -> x <> a).
  { intros x Hx ->. destruct (list_slots_el _ _ _ _ _ _ _ HI E Hx) as (? & ? & ?). congruence. }
  assert (Inb1 : In b1 (somes p)) by (apply in_somes; rewrite <- Hb1; apply nth_In; unfold index_ok, len in Oi; lia).
  assert (Inb2 : In b2 (somes p)) by (apply in_somes; rewrite <- Hb2; apply nth_In; unfold index_ok, len in Oj; lia).
  (* the final contents *)
  assert (EQ : lset (lset p2 (Z.to_nat i) (Some b2)) (Z.to_nat j) (Some b1) =
               lset (lset p (Z.to_nat i) (Some b2)) (Z.to_nat j) (Some b1)).
  { destruct D2 as [(_ & ->)|(_ & ->)]; destruct D1 as [(_ & ->)|(_ & ->)]; auto.
    - rewrite (lset_comm _ (Z.to_nat j) (Z.to_nat i)) by auto. rewrite lset_lset, lset_lset. reflexivity.
    - rewrite (lset_comm _ (Z.to_nat j) (Z.to_nat i)) by auto. rewrite lset_lset. reflexivity.
    - rewrite lset_lset. reflexivity. }
  assert (InQ : forall b, In b (somes (lset p2 (Z.to_nat i) (Some b2))) -> In b (somes p)).
  { intros b Hb. apply in_somes, in_lset in Hb. destruct Hb as [Hb|Hb]; [inversion Hb; subst; auto|].
    assert (In (Some b) p1). { destruct D2 as [(_ & ->)|(_ & ->)]; auto. apply in_lset in Hb. destruct Hb as [Hb|Hb]; [discriminate|auto]. }
    assert (In (Some b) p). { destruct D1 as [(_ & ->)|(_ & ->)]; auto. apply in_lset in H. destruct H as [H|H]; [discriminate|auto]. }
    apply in_somes; auto. }
  assert (Oj3 : index_ok (lset p2 (Z.to_nat i) (Some b2)) j = true) by (unfold index_ok, len in *; rewrite lset_length, Lp2; auto).
  assert (Sb1 : sk (hget h3 b1) = sk (hget h b1)).
  { rewrite F3 by (left; left; auto). apply S12; auto. }
  destruct (list_set_raw h3 own a3 b1 r3 s3 _ j I3 A3 Oj3) as (a4 & h4 & r4 & s4 & E4 & I4 & F4 & A4 & S4 & D4).
  { destruct D3 as [->|D3]; [auto|]. right.
    intros e He. pose proof He as He'. apply in_lset in He.
    assert (exists b, e = Some b /\ isel (hget h2 b)) as (b & -> & Hb).
    { destruct He as [->|He]; [|apply D3; auto]. exists b2. split; auto.
      eapply isel_sk; [symmetry; apply S2; auto|exact He2]. }
    exists b. split; auto. eapply isel_sk; [symmetry; apply S3, in_somes, He'|exact Hb]. }
  { eapply isel_sk; [symmetry; exact Sb1|exact He1]. }
  rewrite E4. exists (Some a4), h4. split; [reflexivity|]. split; [exact I4|]. split.
  - eapply fr_trans; [exact FR1|]. eapply fr_trans; [eapply fr_incl; [|exact FR2]; incl_tac|].
    eapply fr_trans; [eapply fr_incl; [|exact F3]; incl_tac|exact F4].
  - eexists _, _, _. split; [exact A4|].
    rewrite <- !lset_upd_at.
    + eapply vals_sk with (h := h).
      * intros b Hb. rewrite S4 by exact Hb.
        apply in_somes, in_lset in Hb. destruct Hb as [Hb|Hb]; [inversion Hb; subst; exact Sb1|].
        apply in_somes in Hb. rewrite S3 by exact Hb. apply S12, Ob, InQ, Hb.
      * rewrite EQ.
        eapply vals_lset; [eapply vals_lset; [exact V|exact Eb2]|exact Eb1].
    + rewrite Vi. auto.
    + rewrite <- lset_upd_at by (rewrite Vi; auto). unfold valid_pos, slen in *. rewrite lset_length. rewrite Vj. auto.
Qed.

(** ** Reversal *)
Lemma seq_swap_length vs i j ws : seq_swap (Some vs) i j = Some ws -> length ws = length vs.
Proof.
  unfold seq_swap. destruct (i =? j); [intros H; inversion H; auto|].
  destruct (valid_pos vs i) eqn:Q1; [|discriminate]. destruct (valid_pos vs j) eqn:Q2; [|discriminate].
  cbn [andb]. rewrite <- (lset_upd_at vs i) by auto.
  rewrite <- lset_upd_at by (unfold valid_pos, slen in *; rewrite lset_length; auto).
  intros H; inversion H. rewrite !lset_length. reflexivity.
Qed.
Lemma seq_swap_nth vs i j k : 0 <= i < slen vs -> 0 <= j < slen vs ->
  exists ws, seq_swap (Some vs) i j = Some ws /\
  nth k ws 0 = if Nat.eqb k (Z.to_nat i) then nth (Z.to_nat j) vs 0
               else if Nat.eqb k (Z.to_nat j) then nth (Z.to_nat i) vs 0 else nth k vs 0.
Proof.
  intros Hi Hj. unfold seq_swap. destruct (Z.eqb_spec i j) as [->|N].
  - exists vs. split; auto. destruct (Nat.eqb_spec k (Z.to_nat j)) as [->|]; auto.
  - replace (valid_pos vs i && valid_pos vs j) with true by (unfold valid_pos; lia).
    eexists. split; [reflexivity|].
    rewrite <- (lset_upd_at vs i) by (unfold valid_pos; lia).
    rewrite <- lset_upd_at by (unfold valid_pos, slen in *; rewrite lset_length; lia).
    unfold slen in *.
    destruct (Nat.eqb_spec k (Z.to_nat i)) as [->|N1].
    + rewrite lset_nth_neq by lia. apply lset_nth_eq. lia.
    + destruct (Nat.eqb_spec k (Z.to_nat j)) as [->|N2].
      * apply lset_nth_eq. rewrite lset_length. lia.
      * rewrite !lset_nth_neq by auto. reflexivity.
Qed.

Lemma reverse_loop_lop k : forall h own l us vs i n, I h (optl l ++ own) -> lrel h l (Some us) ->
  n = slen vs -> slen vs < 2 ^ 31 -> length us = length vs -> 0 <= i -> (Z.to_nat n <= k + Z.to_nat i)%nat ->
  (forall m, (m < length vs)%nat -> nth m us 0 =
     if ((Z.of_nat m <? i) || (n - 1 - i <? Z.of_nat m)) then nth (length vs - 1 - m) vs 0 else nth m vs 0) ->
  lop (reverse_loop k i n l) h own (Some (rev vs)).
Proof.
  induction k as [|k IH]; intros h own l us vs i n HI RL Hn Hb Hl Hi Hk Hu; cbn [reverse_loop].
  - exists l, h. split; [reflexivity|]. split; [exact HI|]. split; [apply fr_refl|].
    replace (rev vs) with us; auto. apply nth_ext with (d := 0) (d' := 0); [rewrite rev_length; auto|].
    intros m Hm. rewrite Hu, rev_nth by lia. unfold slen in *.
    replace (Z.of_nat m <? i) with true by lia. cbn [orb]. f_equal. lia.
  - destruct (i <? n - 1 - i) eqn:Q.
    + unfold slen in *.
      destruct (list_swap_lop h own l (Some us) i (n - 1 - i) HI RL) as (l1 & h1 & E1 & I1 & F1 & R1).
      { unfold uint; lia. } { unfold uint; lia. } { intros ? X; inversion X; subst. unfold slen. lia. }
      assert (exists ws, seq_swap (Some us) i (n - 1 - i) = Some ws) as (ws & Ews).
      { destruct (seq_swap_nth us i (n - 1 - i) 0) as (ws & H & _); unfold slen; try lia. eauto. }
      rewrite Ews in R1.
      destruct (IH h1 own l1 ws vs (i + 1) n I1 R1 Hn Hb) as (l2 & h2 & E2 & I2 & F2 & R2); try lia.
      { rewrite (seq_swap_length _ _ _ _ Ews). auto. }
      { intros m Hm. destruct (seq_swap_nth us i (n - 1 - i) m) as (ws' & H & Hw); unfold slen; try lia.
        assert (ws' = ws) by congruence. subst ws'. rewrite Hw. clear Hw.
        destruct (Nat.eqb_spec m (Z.to_nat i)).
        - rewrite Hu by lia. replace (Z.of_nat m <? i + 1) with true by lia. cbn [orb].
          replace ((Z.of_nat (Z.to_nat (n - 1 - i)) <? i) || (n - 1 - i <? Z.of_nat (Z.to_nat (n - 1 - i)))) with false by lia.
          f_equal. lia.
        - destruct (Nat.eqb_spec m (Z.to_nat (n - 1 - i))).
          + rewrite Hu by lia. replace ((Z.of_nat m <? i + 1) || (n - 1 - (i + 1) <? Z.of_nat m)) with true by lia.
            replace ((Z.of_nat (Z.to_nat i) <? i) || (n - 1 - i <? Z.of_nat (Z.to_nat i))) with false by lia.
            f_equal. lia.
          + rewrite Hu by lia.
            replace ((Z.of_nat m <? i + 1) || (n - 1 - (i + 1) <? Z.of_nat m)) with ((Z.of_nat m <? i) || (n - 1 - i <? Z.of_nat m)) by lia.
            reflexivity. }
      exists l2, h2. unfold bind. rewrite E1. split; [exact E2|]. split; [exact I2|]. split; [|exact R2].
      eapply fr_trans; eauto.
    + exists l, h. split; [reflexivity|]. split; [exact HI|]. split; [apply fr_refl|].
      replace (rev vs) with us; auto. apply nth_ext with (d := 0) (d' := 0); [rewrite rev_length; auto|].
      intros m Hm. rewrite Hu, rev_nth by lia. unfold slen in *.
      destruct ((Z.of_nat m <? i) || (n - 1 - i <? Z.of_nat m)) eqn:Q2; f_equal; lia.
Qed.
Lemma list_size_lop h l vl : lrel h l vl ->
  list_size l h = Some (match vl with Some vs => slen vs | None => -1 end, h).
Proof.
  intros RL. destruct l as [a|]; destruct vl as [vs|]; try destruct RL; [|reflexivity].
  destruct H as (s & p & E & V). unfold list_size, with_list. rewrite E. unfold ret, len, slen.
  rewrite (vals_len _ _ _ V). reflexivity.
Qed.
Lemma list_reverse_lop h own l vl : I h (optl l ++ own) -> lrel h l vl ->
  (forall vs, vl = Some vs -> slen vs < 2 ^ 31) ->
  lop (list_reverse l) h own (match vl with Some vs => Some (rev vs) | None => None end).
Proof.
  intros HI RL B. unfold list_reverse, lop, bind. rewrite (list_size_lop _ _ _ RL).
  destruct vl as [vs|].
  - apply (reverse_loop_lop (Z.to_nat (slen vs)) h own l vs vs 0 (slen vs)); auto; try lia.
    intros m Hm. unfold slen. replace ((Z.of_nat m <? 0) || (Z.of_nat (length vs) - 1 - 0 <? Z.of_nat m)) with false by lia.
    reflexivity.
  - cbn. exists l, h. split; [reflexivity|]. split; [exact HI|]. split; [apply fr_refl|exact RL].
Qed.

(** ** Map *)
Lemma el_modify_ok h own b r v f : I h (b :: own) -> hget h b = Some (OEl r v) ->
  exists e' h', el_modify f (Some b) h = Some (e', h') /\ I h' (optl e' ++ own) /\ fr own h h' /\
    erel h' e' (f v) /\ (forall x, x <> b -> (x < length h)%nat -> hget h' x = hget h x).
Proof.
  intros HI E. unfold el_modify. rewrite E. pose proof (hget_lt _ _ _ E) as Lb.
  assert (R1 : 1 <= r).
  { destruct HI as (_ & B & _). specialize (B b). rewrite E in B. apply B. discriminate. }
  destruct (f v) as [v'|].
  - destruct (Z.eqb_spec r 1) as [->|N].
    + eexists (Some b), _. split; [reflexivity|]. split; [|split; [|split]].
      * cbn [optl app]. eapply I_upd; [exact HI|exact E| | | | |].
        -- czs.
        -- intros _. cbn [refcnt]; lia.
        -- intros _. right. eexists _, _; reflexivity.
        -- simpl; tauto.
        -- exact Logic.I.
      * apply fr_upd. right. eapply sole; eauto. rewrite E; reflexivity.
      * exists 1. apply hget_set_eq; auto.
      * intros x Nx _. apply hget_set_neq; auto.
    + cbv zeta. set (h1 := hset h b (Some (OEl (r - 1) v))).
      assert (I1 : I h1 own).
      { eapply I_upd; eauto.
        - czs.
        - intros _. simpl. lia.
        - intros _. right. eexists _, _; reflexivity.
        - simpl; tauto.
        - exact Logic.I. }
      destruct (el_alloc_ok h1 own v' I1) as (h2 & E2 & I2 & A2 & L2 & X2).
      assert (L1 : length h1 = length h) by apply hset_length.
      rewrite E2. eexists _, _. split; [reflexivity|]. split; [exact I2|]. split; [|split].
      * eapply fr_trans; [apply (fr_upd own h b (Some (OEl (r - 1) v))); left; rewrite E; reflexivity|].
        eapply fr_ext; [exact I1|]. intros x Hx. rewrite X2; auto.
      * exists 1. exact A2.
      * intros x Nx Hx. rewrite X2 by lia. apply hget_set_neq; auto.
  - destruct (el_free_ok h own b HI) as (h1 & E1 & I1 & L1 & F1 & X1); [eexists _, _; eauto|].
    exists None, h1. unfold bind. rewrite E1. split; [reflexivity|]. split; [exact I1|]. split; [exact F1|].
    split; [exact Logic.I|]. intros x Nx _. apply X1; auto.
Qed.
Lemma el_modify_eop h own e ve f : I h (optl e ++ own) -> erel h e ve ->
  eop (el_modify f e) h own (match ve with Some v => f v | None => None end).
Proof.
  intros HI RE. destruct e as [b|]; destruct ve as [v|]; try destruct RE.
  - destruct (el_modify_ok h own b x v f HI H) as (e' & h' & A & B & C & D & _).
    exists e', h'. split; [exact A|]. split; [exact B|]. split; [exact C|exact D].
  - exists None, h. split; [reflexivity|]. split; [exact HI|]. split; [apply fr_refl|exact Logic.I].
Qed.
Lemma map_loop_null f k i h : map_loop f k i None h = Some (None, h).
Proof. destruct k; reflexivity. Qed.
Lemma map_loop_lop f : forall todo h own a done r s p, I h (a :: own) -> hget h a = Some (OList r s p) ->
  vals h p (done ++ todo) ->
  lop (map_loop f (length todo) (slen done) (Some a)) h own
      (match map_opt f todo with Some ws => Some (done ++ ws) | None => None end).
Proof.
  induction todo as [|v todo IH]; intros h own a done r s p HI E V; cbn [map_loop length map_opt].
  - exists (Some a), h. split; [reflexivity|]. split; [exact HI|]. split; [apply fr_refl|].
    eexists _, _, _; eauto.
  - pose proof (vals_len _ _ _ V) as HL. rewrite app_length in HL. cbn [length] in HL.
    set (k := length done) in *.
    assert (Hk : Z.to_nat (slen done) = k) by (unfold slen, k; lia).
    assert (Q : index_ok p (slen done) = true) by (unfold index_ok, len, slen; lia).
    destruct (vals_nth h p _ k V ltac:(lia)) as (b & rb & Hb & Eb).
    rewrite app_nth2, Nat.sub_diag in Eb by (unfold k; lia). cbn [nth] in Eb.
    rewrite <- Hk in Hb.
    destruct (list_take_raw h own a r s p b (slen done) HI E Q Hb) as (h1 & p1 & E1 & I1 & A1 & S1 & D1 & He).
    rewrite Hk in *.
    assert (Nb : b <> a) by congruence.
    assert (Sb : sk (hget h1 b) = SkEl v) by (rewrite S1, Eb by auto; reflexivity).
    destruct (hget h1 b) as [[rb1 vb1|]|] eqn:Eb1; try discriminate. inversion Sb; subst vb1. clear Sb.
    unfold lop, bind. rewrite E1.
    destruct (el_modify_ok h1 (a :: own) b rb1 v f) as (e2 & h2 & E2 & I2 & F2 & R2 & X2); auto.
    { eapply I_perm; [|exact I1]. apply perm_swap. }
    rewrite E2.
    assert (A2 : hget h2 a = Some (OList r s p1)).
    { rewrite X2; auto. eapply hget_lt; eauto. }
    assert (FR1 : fr own h h1).
    { intros x R. destruct (Nat.eq_dec x a) as [->|Nx]; [|apply S1; auto].
      destruct D1 as [(-> & _)|(_ & ->)].
      - exfalso. eapply sole; [exact HI| |exact R]. rewrite E; reflexivity.
      - rewrite A1, E. reflexivity. }
    assert (Lp1 : length p1 = length p) by (destruct D1 as [(_ & ->)|(_ & ->)]; rewrite ?lset_length; auto).
    assert (Pe : forall c, In c (somes p1) -> sk (hget h2 c) = sk (hget h c)).
    { intros c Hc. rewrite F2 by (right; exists a; rewrite A1; split; [left|]; auto).
      apply S1. intros ->. destruct (list_slots_el _ _ _ _ _ _ _ I1 A1 Hc) as (? & ? & ?). congruence. }
    destruct (f v) as [w|] eqn:Ef.
    + destruct e2 as [b2|]; [|destruct R2]. destruct R2 as (rb2 & Eb2).
      destruct (list_set_raw h2 own a b2 r s p1 (slen done)) as (a3 & h3 & r3 & s3 & E3 & I3 & F3 & A3 & S3 & D3); auto.
      { eapply I_perm; [|exact I2]. apply perm_swap. }
      { unfold index_ok, len in *. rewrite Lp1. auto. }
      { destruct D1 as [(-> & _)|(N & ->)]; auto. right. eapply full_sk; [exact Pe|]. eapply vals_full; eauto. }
      { eexists _, _; eauto. }
      rewrite E3. rewrite Hk in *.
      assert (V3 : vals h3 (lset p1 k (Some b2)) ((done ++ [w]) ++ todo)).
      { replace ((done ++ [w]) ++ todo) with (lset (done ++ v :: todo) k w).
        2:{ rewrite lset_app by (rewrite app_length; simpl; lia).
            rewrite firstn_app, Nat.sub_diag, firstn_all2, app_nil_r by (unfold k; lia).
            rewrite skipn_app. replace (skipn (S k) done) with (@nil Z) by (symmetry; apply skipn_all2; unfold k; lia).
            replace (S k - length done)%nat with 1%nat by (unfold k; lia). rewrite <- app_assoc. reflexivity. }
        replace (lset p1 k (Some b2)) with (lset p k (Some b2)) in *.
        2:{ destruct D1 as [(_ & ->)|(_ & ->)]; auto. rewrite lset_lset. reflexivity. }
        unfold vals. rewrite !lset_map.
        assert (Hv : forall m, m <> k -> (m < length p)%nat -> pv h3 (nth m p None) = pv h (nth m p None)).
        { intros m Nm Lm. destruct (nth m p None) as [c|] eqn:Ec; [|reflexivity]. simpl. apply elv_sk.
          assert (Ic : In c (somes p1)).
          { apply in_somes. destruct D1 as [(_ & ->)|(_ & ->)].
            - rewrite <- Ec. rewrite <- (lset_nth_neq p k m None None) by auto. apply nth_In. rewrite lset_length; auto.
            - rewrite <- Ec. apply nth_In; auto. }
          rewrite S3; [apply Pe; auto|].
          apply in_somes. rewrite <- Ec. rewrite <- (lset_nth_neq p k m (Some b2) None) by auto. apply nth_In. rewrite lset_length; auto. }
        assert (Sb2 : sk (hget h3 b2) = SkEl w).
        { rewrite S3, Eb2; [reflexivity|]. apply in_somes.
          rewrite lset_app by lia. apply in_or_app; right; left; auto. }
        cbn [pv]. replace (elv (hget h3 b2)) with (Some w).
        2:{ destruct (hget h3 b2) as [[]|]; try discriminate. simpl in *. congruence. }
        apply nth_ext with (d := None) (d' := None); [rewrite !lset_length, !map_length, app_length; simpl; lia|].
        rewrite lset_length, map_length. intros m Lm. destruct (Nat.eq_dec m k) as [->|Nm].
        - rewrite !lset_nth_eq; auto; rewrite map_length; auto. rewrite app_length; simpl; lia.
        - rewrite !lset_nth_neq by auto. rewrite <- V.
          rewrite (nth_indep _ None (pv h3 None)), (nth_indep (map (pv h) p) None (pv h None)) by (rewrite map_length; auto).
          rewrite !map_nth. apply Hv; auto. }
      destruct (IH h3 own a3 (done ++ [w]) r3 s3 _ I3 A3 V3) as (l4 & h4 & E4 & I4 & F4 & R4).
      replace (slen done + 1) with (slen (done ++ [w])) by (unfold slen; rewrite app_length; simpl; lia).
      rewrite E4. exists l4, h4. split; [reflexivity|]. split; [exact I4|]. split.
      * eapply fr_trans; [exact FR1|]. eapply fr_trans; [eapply fr_incl; [|exact F2]; incl_tac|].
        eapply fr_trans; [exact F3|exact F4].
      * destruct (map_opt f todo) as [ws|]; [|exact R4]. rewrite <- app_assoc in R4. exact R4.
    + destruct e2; [destruct R2|].
      change (list_set (Some a) (slen done) None h2) with (err_path (Some a) None h2).
      destruct (err_ok h2 own (Some a) None I2) as (h3 & E3 & I3 & F3).
      { discriminate. } { intros ? X; inversion X; subst. eexists _, _, _; eauto. }
      rewrite E3, map_loop_null. exists None, h3. split; [reflexivity|]. split; [exact I3|]. split; [|exact Logic.I].
      eapply fr_trans; [exact FR1|]. eapply fr_trans; [eapply fr_incl; [|exact F2]; incl_tac|exact F3].
Qed.
Lemma list_map_lop f h own l vl : I h (optl l ++ own) -> lrel h l vl ->
  lop (list_map f l) h own (match vl with Some vs => map_opt f vs | None => None end).
Proof.
  intros HI RL. destruct l as [a|]; destruct vl as [vs|]; try destruct RL.
  - destruct H as (s & p & E & V). unfold lop, list_map, with_list. rewrite E. rewrite (vals_len _ _ _ V).
    destruct (map_loop_lop f vs h own a [] x s p HI E V) as (l' & h' & X).
    exists l', h'. destruct (map_opt f vs); exact X.
  - exists None, h. split; [reflexivity|]. split; [exact HI|]. split; [apply fr_refl|exact Logic.I].
Qed.

(** ** Concatenation and reading *)
Lemma list_concat_lop h own l1 l2 v1 v2 : I h (optl l1 ++ optl l2 ++ own) -> lrel h l1 v1 -> lrel h l2 v2 ->
  lop (list_concat l1 l2) h own (match v1, v2 with Some x, Some y => Some (x ++ y) | _, _ => None end).
Proof.
  intros HI R1 R2.
  assert (ERR : lop (bind (list_free l1) (fun _ => bind (list_free l2) (fun _ => ret None))) h own None).
  { destruct (list_free_any h (optl l2 ++ own) l1 HI) as (h1 & E1 & I1 & F1).
    { intros b ->. eapply lrel_list; eauto. }
    destruct (list_free_any h1 own l2 I1) as (h2 & E2 & I2 & F2).
    { intros b ->. eapply lrel_list. eapply lrel_fr; [exact F1|left; reflexivity|exact R2]. }
    exists None, h2. unfold bind. rewrite E1, E2. split; [reflexivity|]. split; [exact I2|]. split; [|exact Logic.I].
    eapply fr_trans; [eapply fr_incl; [|exact F1]; incl_tac|exact F2]. }
  destruct l1 as [a|]; destruct v1 as [vs1|]; try (destruct R1; fail); [|exact ERR].
  destruct l2 as [b|]; destruct v2 as [vs2|]; try (destruct R2; fail); [|exact ERR].
  clear ERR. pose proof R2 as R2'.
  destruct R1 as (r1 & s1 & p1 & Ea & V1). destruct R2 as (r2 & s2 & p2 & Eb & V2).
  unfold lop, list_concat, with_list. rewrite Ea, Eb.
  cbn [optl app] in HI.
  pose proof (hget_lt _ _ _ Ea) as La. pose proof (hget_lt _ _ _ Eb) as Lb.
  assert (Hel1 : forall c, In c (somes p1) -> isel (hget h c)) by (intros c Hc; exact (list_slots_el _ _ _ _ _ _ _ HI Ea Hc)).
  assert (Hel2 : forall c, In c (somes p2) -> isel (hget h c)) by (intros c Hc; exact (list_slots_el _ _ _ _ _ _ _ HI Eb Hc)).
  destruct ((r1 =? 1) && (len p1 + len p2 <=? s1)) eqn:Q.
  - assert (r1 = 1) by lia. subst r1.
    assert (Nab : b <> a).
    { intros ->. eapply (sole h (a :: own) a HI); [rewrite Ea; reflexivity|left; left; reflexivity]. }
    assert (Na1 : forall c, isel (hget h c) -> c <> a) by (intros c (? & ? & ?) ->; congruence).
    destruct (add_copies_ok p2 h (b :: own) a s1 p1 HI Ea) as (h1 & E1 & I1 & A1 & L1 & X1); [lia|eapply vals_full; eauto|].
    unfold bind. rewrite E1.
    destruct (list_free_any h1 (a :: own) (Some b)) as (h2 & E2 & I2 & F2).
    { eapply I_perm; [|exact I1]. apply perm_swap. }
    { intros ? X; inversion X; subst. eapply islist_sk; [symmetry; apply X1; auto|]. eexists _, _, _; eauto. }
    rewrite E2. exists (Some a), h2. split; [reflexivity|]. split; [exact I2|]. split.
    + eapply fr_trans; [|eapply fr_incl; [|exact F2]; incl_tac].
      intros x R. apply X1. intros ->. eapply (sole h (b :: own) a HI); [rewrite Ea; reflexivity|].
      eapply reach_incl; [|exact R]. incl_tac.
    + eapply lrel_fr; [exact F2|left; reflexivity|]. eexists _, _, _. split; [exact A1|].
      apply vals_app; (eapply vals_sk; [|eassumption]); intros c Hc; apply X1, Na1; auto.
  - pose proof (len_nonneg p1). pose proof (len_nonneg p2).
    destruct (list_alloc_ok h _ (len p1 + len p2) HI ltac:(lia)) as (h1 & E1 & I1 & A1 & L1 & X1).
    unfold bind. rewrite E1.
    destruct (add_copies_ok p1 h1 (a :: b :: own) (length h) (len p1 + len p2) []) as (h2 & E2 & I2 & A2 & L2 & X2); auto.
    { unfold len at 1. simpl (length []). lia. }
    { eapply full_sk; [|eapply vals_full; exact V1]. intros c Hc. rewrite X1; auto. apply el_lt; auto. }
    rewrite E2. cbn [app] in A2.
    assert (S2 : forall c, (c < length h)%nat -> sk (hget h2 c) = sk (hget h c)) by (intros c Hc; rewrite X2, X1; auto; lia).
    destruct (add_copies_ok p2 h2 (a :: b :: own) (length h) (len p1 + len p2) p1) as (h3 & E3 & I3 & A3 & L3 & X3); auto.
    { lia. }
    { eapply full_sk; [|eapply vals_full; exact V2]. intros c Hc. apply S2. apply el_lt; auto. }
    rewrite E3.
    assert (S3 : forall c, (c < length h)%nat -> sk (hget h3 c) = sk (hget h c)) by (intros c Hc; rewrite X3, S2; auto; lia).
    assert (F03 : fr (a :: b :: own) h h3) by (eapply fr_ext'; [exact HI|incl_tac|exact S3]).
    destruct (list_free_any h3 (b :: length h :: own) (Some a)) as (h4 & E4 & I4 & F4).
    { eapply I_perm; [|exact I3]. cbn [optl app]. eapply perm_trans; [apply perm_swap|]. apply perm_skip, perm_swap. }
    { intros ? X; inversion X; subst. eapply islist_sk; [symmetry; apply S3; auto|]. eexists _, _, _; eauto. }
    rewrite E4.
    destruct (list_free_any h4 (length h :: own) (Some b) I4) as (h5 & E5 & I5 & F5).
    { intros ? X; inversion X; subst. eapply islist_sk; [symmetry; apply F4; left; left; auto|].
      eapply islist_sk; [symmetry; apply S3; auto|]. eexists _, _, _; eauto. }
    rewrite E5. exists (Some (length h)), h5. split; [reflexivity|]. split; [exact I5|]. split.
    + eapply fr_trans; [eapply fr_incl; [|exact F03]; incl_tac|].
      eapply fr_trans; [eapply fr_incl; [|exact F4]; incl_tac|]. eapply fr_incl; [|exact F5]; incl_tac.
    + eapply lrel_fr; [exact F5|left; reflexivity|]. eapply lrel_fr; [exact F4|right; left; reflexivity|].
      eexists _, _, _. split; [exact A3|].
      apply vals_app; (eapply vals_sk; [|eassumption]); intros c Hc; apply S3, el_lt; auto.
Qed.
Lemma read_els_ok h p vs : vals h p vs -> read_els p h = Some (vs, h).
Proof.
  revert vs. induction p as [|e p IH]; intros vs V; cbn [read_els].
  - destruct vs; [reflexivity|discriminate].
  - destruct vs as [|v vs]; [discriminate|]. unfold vals in V. cbn [map] in V. inversion V as [[V1 V2]].
    destruct e as [b|]; [|discriminate]. simpl in V1. destruct (hget h b) as [[r w|]|]; try discriminate.
    simpl in V1. inversion V1; subst. unfold bind. rewrite (IH vs V2). reflexivity.
Qed.
Lemma list_read_ok h l vl : lrel h l vl -> list_read l h = Some (vl, h).
Proof.
  intros RL. destruct l as [a|]; destruct vl as [vs|]; try destruct RL; [|reflexivity].
  destruct H as (s & p & E & V). unfold list_read, with_list. rewrite E. unfold bind. rewrite (read_els_ok _ _ _ V). reflexivity.
Qed.
Lemma el_read_ok h e ve : erel h e ve -> el_read e h = Some (ve, h).
Proof.
  intros RL. destruct e as [a|]; destruct ve as [v|]; try destruct RL; [|reflexivity].
  unfold el_read. rewrite H. reflexivity.
Qed.

(** ** Client histories *)
Definition regs (N : nat) (f : nat -> option addr) : list addr := flat_map (fun i => optl (f i)) (seq 0 N).
Definition own (N : nat) (c : cstate) : list addr := regs N (els c) ++ regs N (lists c).
Lemma regs_rset N f i a : (i < N)%nat -> Permutation (regs N (rset f i a)) (optl a ++ regs N (rset f i None)).
Proof.
  intros H. unfold regs.
  replace (seq 0 N) with (seq 0 i ++ i :: seq (S i) (N - S i)).
  2:{ replace N with (i + S (N - S i))%nat at 2 by lia. rewrite seq_app. reflexivity. }
  rewrite !flat_map_app. cbn [flat_map]. unfold rset at 2 5. rewrite Nat.eqb_refl. cbn [optl app].
  assert (X : forall b b' l, ~ In i l -> flat_map (fun j => optl (rset f i b j)) l = flat_map (fun j => optl (rset f i b' j)) l).
  { intros b b' l Hl. rewrite !flat_map_concat_map. f_equal. apply map_ext_in. intros j Hj. unfold rset.
    destruct (Nat.eqb_spec j i); [subst; tauto|reflexivity]. }
  rewrite (X a None (seq 0 i)) by (rewrite in_seq; lia).
  rewrite (X a None (seq (S i) _)) by (rewrite in_seq; lia).
  rewrite !app_assoc. apply Permutation_app_tail, Permutation_app_comm.
Qed.
Lemma regs_split N f i : (i < N)%nat -> Permutation (regs N f) (optl (f i) ++ regs N (rset f i None)).
Proof.
  intros H. rewrite <- regs_rset by auto. unfold regs. rewrite !flat_map_concat_map.
  replace (map (fun j => optl (rset f i (f i) j)) (seq 0 N)) with (map (fun j => optl (f j)) (seq 0 N)); [apply Permutation_refl|].
  apply map_ext. intros j. unfold rset. destruct (Nat.eqb_spec j i); subst; auto.
Qed.
Lemma own_take_list N c l : (l < N)%nat -> Permutation (own N c) (optl (lists c l) ++ own N (take_list c l)).
Proof.
  intros H. unfold own, take_list. cbn [els lists]. rewrite (regs_split N (lists c) l H) at 1.
  rewrite !app_assoc. apply Permutation_app_tail, Permutation_app_comm.
Qed.
Lemma own_take_el N c l : (l < N)%nat -> Permutation (own N c) (optl (els c l) ++ own N (take_el c l)).
Proof.
  intros H. unfold own, take_el. cbn [els lists]. rewrite (regs_split N (els c) l H) at 1.
  rewrite <- app_assoc. apply Permutation_refl.
Qed.

Definition R (h : heap) (c : cstate) (s : sstate) : Prop :=
  (forall e, erel h (els c e) (sels s e)) /\ (forall l, lrel h (lists c l) (slists s l)).
Definition hi (N : nat) (c : cstate) : Prop := forall i, (N <= i)%nat -> els c i = None /\ lists c i = None.
Definition Inv (N : nat) (h : heap) (c : cstate) (s : sstate) : Prop := I h (own N c) /\ R h c s /\ hi N c.

Lemma in_regs N f i a : (i < N)%nat -> f i = Some a -> In a (regs N f).
Proof. intros H E. unfold regs. apply in_flat_map. exists i. rewrite in_seq, E. split; [lia|left; auto]. Qed.
Lemma R_fr N h h' c s : R h c s -> hi N c -> fr (own N c) h h' -> R h' c s.
Proof.
  intros (A & B) H F. split.
  - intros e. specialize (A e). destruct (els c e) as [a|] eqn:E; [|exact A].
    eapply erel_fr; [exact F| |exact A]. apply in_or_app. left. eapply in_regs; eauto.
    destruct (lt_dec e N); auto. destruct (H e ltac:(lia)). congruence.
  - intros l. specialize (B l). destruct (lists c l) as [a|] eqn:E; [|exact B].
    eapply lrel_fr; [exact F| |exact B]. apply in_or_app. right. eapply in_regs; eauto.
    destruct (lt_dec l N); auto. destruct (H l ltac:(lia)). congruence.
Qed.
Lemma R_ext h c s s' : (forall e, sels s e = sels s' e) -> (forall l, slists s l = slists s' l) -> R h c s -> R h c s'.
Proof. intros A B (C & D). split; intros; [rewrite <- A|rewrite <- B]; auto. Qed.
Lemma R_take_el h c s e : R h c s -> R h (take_el c e) (set_sel s e None).
Proof.
  intros (A & B). split; [|exact B]. intros e'. cbn. unfold rset, supd. destruct (Nat.eqb e' e); [exact Logic.I|apply A].
Qed.
Lemma R_take_list h c s e : R h c s -> R h (take_list c e) (set_slist s e None).
Proof.
  intros (A & B). split; [exact A|]. intros e'. cbn. unfold rset, supd. destruct (Nat.eqb e' e); [exact Logic.I|apply B].
Qed.
Lemma hi_take_el N c e : hi N c -> hi N (take_el c e).
Proof. intros H i Hi. destruct (H i Hi). cbn. unfold rset. destruct (Nat.eqb i e); auto. Qed.
Lemma hi_take_list N c e : hi N c -> hi N (take_list c e).
Proof. intros H i Hi. destruct (H i Hi). cbn. unfold rset. destruct (Nat.eqb i e); auto. Qed.

Lemma store_list_ok N h c s d a vl : I h (optl a ++ own N c) -> R h c s -> hi N c -> lrel h a vl -> (d < N)%nat ->
  exists c' h', store_list c d a h = Some ((NoObs, c'), h') /\ Inv N h' c' (set_slist s d vl).
Proof.
  intros HI HR HH RL Hd. unfold store_list, bind.
  assert (I1 : I h (optl (lists c d) ++ optl a ++ own N (take_list c d))).
  { eapply I_perm; [|exact HI]. rewrite (own_take_list N c d Hd) at 1. rewrite !app_assoc.
    apply Permutation_app_tail, Permutation_app_comm. }
  destruct (list_free_any _ _ _ I1) as (h1 & E1 & I2 & F1).
  { intros b Hb. destruct HR as (_ & B). specialize (B d). rewrite Hb in B. eapply lrel_list; eauto. }
  rewrite E1. eexists _, h1. split; [reflexivity|]. split; [|split].
  - eapply I_perm; [|exact I2]. symmetry. unfold own. cbn [els lists take_list].
    rewrite (regs_rset N (lists c) d a Hd). rewrite !app_assoc. apply Permutation_app_tail, Permutation_app_comm.
  - assert (R1 : R h1 (take_list c d) (set_slist s d None)).
    { eapply R_fr; [apply R_take_list; exact HR|apply hi_take_list; exact HH|]. eapply fr_incl; [|exact F1]. apply incl_appr, incl_refl. }
    destruct R1 as (A & B). split; [exact A|]. intros l. specialize (B l). cbn in *. unfold rset, supd in *.
    destruct (Nat.eqb l d); [|exact B]. eapply lrel_fro; [exact F1|apply incl_appl, incl_refl|exact RL].
  - intros i Hi. destruct (HH i Hi). cbn. unfold rset. destruct (Nat.eqb_spec i d); [lia|auto].
Qed.
Lemma store_el_ok N h c s d a vl : I h (optl a ++ own N c) -> R h c s -> hi N c -> erel h a vl -> (d < N)%nat ->
  exists c' h', store_el c d a h = Some ((NoObs, c'), h') /\ Inv N h' c' (set_sel s d vl).
Proof.
  intros HI HR HH RL Hd. unfold store_el, bind.
  assert (I1 : I h (optl (els c d) ++ optl a ++ own N (take_el c d))).
  { eapply I_perm; [|exact HI]. rewrite (own_take_el N c d Hd) at 1. rewrite !app_assoc.
    apply Permutation_app_tail, Permutation_app_comm. }
  destruct (el_free_any _ _ _ I1) as (h1 & E1 & I2 & F1).
  { intros b Hb. destruct HR as (B & _). specialize (B d). rewrite Hb in B. eapply erel_el; eauto. }
  rewrite E1. eexists _, h1. split; [reflexivity|]. split; [|split].
  - eapply I_perm; [|exact I2]. symmetry. unfold own. cbn [els lists take_el].
    rewrite (regs_rset N (els c) d a Hd). rewrite !app_assoc. apply Permutation_refl.
  - assert (R1 : R h1 (take_el c d) (set_sel s d None)).
    { eapply R_fr; [apply R_take_el; exact HR|apply hi_take_el; exact HH|]. eapply fr_incl; [|exact F1]. apply incl_appr, incl_refl. }
    destruct R1 as (A & B). split; [|exact B]. intros l. specialize (A l). cbn in *. unfold rset, supd in *.
    destruct (Nat.eqb l d); [|exact A]. eapply erel_fro; [exact F1|apply incl_appl, incl_refl|exact RL].
  - intros i Hi. destruct (HH i Hi). cbn. unfold rset. destruct (Nat.eqb_spec i d); [lia|auto].
Qed.

(** from an operation on taken registers to a step *)
Lemma lop_step N h c0 s0 d op vl : lop op h (own N c0) vl -> R h c0 s0 -> hi N c0 -> (d < N)%nat ->
  exists c' h', bind op (fun a => store_list c0 d a) h = Some ((NoObs, c'), h') /\ Inv N h' c' (set_slist s0 d vl).
Proof.
  intros (l' & h1 & E & I1 & F & RL) HR HH Hd. unfold bind. rewrite E.
  apply store_list_ok; auto. eapply R_fr; eauto.
Qed.
Lemma eop_step N h c0 s0 d op ve : eop op h (own N c0) ve -> R h c0 s0 -> hi N c0 -> (d < N)%nat ->
  exists c' h', bind op (fun a => store_el c0 d a) h = Some ((NoObs, c'), h') /\ Inv N h' c' (set_sel s0 d ve).
Proof.
  intros (l' & h1 & E & I1 & F & RL) HR HH Hd. unfold bind. rewrite E.
  apply store_el_ok; auto. eapply R_fr; eauto.
Qed.
Lemma own_take2 N c l e : (l < N)%nat -> (e < N)%nat ->
  Permutation (own N c) (optl (lists c l) ++ optl (els c e) ++ own N (take_el (take_list c l) e)).
Proof.
  intros Hl He. rewrite (own_take_list N c l Hl) at 1. apply Permutation_app_head.
  rewrite (own_take_el N (take_list c l) e He) at 1. apply Permutation_refl.
Qed.
Lemma Inv_ext N h c s s' : (forall e, sels s e = sels s' e) -> (forall l, slists s l = slists s' l) -> Inv N h c s -> Inv N h c s'.
Proof. intros A B (C & D & E). split; [exact C|]. split; [eapply R_ext; eauto|exact E]. Qed.
Lemma step_ext N h (op : M (cobs * cstate)) s s' o :
  (exists c' h', op h = Some ((o, c'), h') /\ Inv N h' c' s) ->
  (forall e, sels s e = sels s' e) -> (forall l, slists s l = slists s' l) ->
  exists c' h', op h = Some ((o, c'), h') /\ Inv N h' c' s'.
Proof. intros (c' & h' & E & X) A B. exists c', h'. split; auto. eapply Inv_ext; eauto. Qed.
Ltac supd_tac := intros; cbn; unfold supd; repeat match goal with |- context [Nat.eqb ?a ?b] => destruct (Nat.eqb_spec a b); subst end; auto; try congruence.

Lemma cexec_ok N h c s o : Inv N h c s -> cop_ok N o -> (forall l vs, slists s l = Some vs -> slen vs < 2 ^ 31) ->
  exists c' h', cexec o c h = Some ((fst (sexec o s), c'), h') /\ Inv N h' c' (snd (sexec o s)).
Proof.
  intros (HI & HR & HH) (HO & HV) HB. pose proof HR as (RE & RL).
  assert (T1 : forall l, (l < N)%nat -> I h (optl (lists c l) ++ own N (take_list c l)))
    by (intros l Hl; eapply I_perm; [apply own_take_list; auto|exact HI]).
  assert (T2 : forall e, (e < N)%nat -> I h (optl (els c e) ++ own N (take_el c e)))
    by (intros e He; eapply I_perm; [apply own_take_el; auto|exact HI]).
  assert (T3 : forall l e, (l < N)%nat -> (e < N)%nat -> I h (optl (lists c l) ++ optl (els c e) ++ own N (take_el (take_list c l) e)))
    by (intros l e Hl He; eapply I_perm; [apply own_take2; auto|exact HI]).
  destruct o; cbn [cexec sexec fst snd regs_of] in *.
  - eapply eop_step; eauto; [|apply HO; left; auto].
    destruct (el_alloc_ok h (own N c) v HI) as (h1 & E1 & I1 & A1 & L1 & X1).
    eexists _, _. split; [exact E1|]. split; [exact I1|]. split; [|exists 1; exact A1].
    eapply fr_ext; [exact HI|]. intros; rewrite X1; auto.
  - eapply eop_step; eauto; [|apply HO; left; auto].
    specialize (RE e). destruct (els c e) as [a|] eqn:Ea; destruct (sels s e) as [v|]; try (destruct RE; fail).
    + destruct RE as (r & Er). destruct (el_copy_ok h (own N c) a HI) as (h1 & E1 & I1 & L1 & S1 & X1); [eexists _, _; eauto|].
      eexists _, _. split; [exact E1|]. split; [exact I1|]. split; [intros x _; apply S1|].
      specialize (S1 a). rewrite Er in S1. destruct (hget h1 a) as [[r1 v1|]|] eqn:E2; try discriminate. inversion S1; subst.
      exists r1. exact E2.
    + exists None, h. split; [reflexivity|]. split; [exact HI|]. split; [apply fr_refl|exact Logic.I].
  - assert (He : (e < N)%nat) by (apply HO; left; auto).
    destruct (el_free_any _ _ _ (T2 e He)) as (h1 & E1 & I1 & F1).
    { intros b Hb. specialize (RE e). rewrite Hb in RE. eapply erel_el; eauto. }
    unfold bind. rewrite E1. eexists _, _. split; [reflexivity|]. split; [exact I1|].
    split; [|apply hi_take_el; auto]. eapply R_fr; [apply R_take_el; exact HR|apply hi_take_el; exact HH|exact F1].
  - assert (He : (e < N)%nat) by (apply HO; left; auto).
    eapply step_ext; [eapply eop_step; [apply el_modify_eop; [exact (T2 e He)|apply RE]|apply R_take_el; exact HR|apply hi_take_el; auto|exact He]|supd_tac|supd_tac].
  - unfold bind. rewrite (el_read_ok _ _ _ (RE e)). eexists _, _. split; [reflexivity|]. split; auto.
  - assert (Hl : (l < N)%nat) by (apply HO; left; auto).
    eapply lop_step; eauto. unfold list_alloc. destruct (n <? 0) eqn:Q.
    + exists None, h. split; [reflexivity|]. split; [exact HI|]. split; [apply fr_refl|exact Logic.I].
    + destruct (list_alloc_ok h (own N c) n HI ltac:(lia)) as (h1 & E1 & I1 & A1 & L1 & X1).
      unfold list_alloc in E1. rewrite Q in E1.
      eexists _, _. split; [exact E1|]. split; [exact I1|]. split; [|exists 1, n, []; split; [exact A1|reflexivity]].
      eapply fr_ext; [exact HI|]. intros; rewrite X1; auto.
  - assert (Hl : (d < N)%nat) by (apply HO; left; auto).
    eapply lop_step; eauto. specialize (RL l).
    destruct (lists c l) as [a|] eqn:Ea; destruct (slists s l) as [vs|] eqn:Es; try (destruct RL; fail).
    + pose proof RL as RL'. destruct RL as (r & s0 & p & Er & V).
      destruct (list_copy_ok h (own N c) a r s0 p HI Er) as (h1 & E1 & I1 & L1 & S1).
      eexists _, _. split; [exact E1|]. split; [exact I1|]. split; [intros x _; apply S1|].
      apply (lrel_fr [a] h); [intros x _; apply S1|left; auto|exact RL'].
    + exists None, h. split; [reflexivity|]. split; [exact HI|]. split; [apply fr_refl|exact Logic.I].
  - assert (Hl : (l < N)%nat) by (apply HO; left; auto).
    destruct (list_free_any _ _ _ (T1 l Hl)) as (h1 & E1 & I1 & F1).
    { intros b Hb. specialize (RL l). rewrite Hb in RL. eapply lrel_list; eauto. }
    unfold bind. rewrite E1. eexists _, _. split; [reflexivity|]. split; [exact I1|].
    split; [|apply hi_take_list; auto]. eapply R_fr; [apply R_take_list; exact HR|apply hi_take_list; exact HH|exact F1].
  - assert (Hl : (l < N)%nat) by (apply HO; left; auto). assert (He : (e < N)%nat) by (apply HO; right; left; auto).
    eapply step_ext; [eapply lop_step; [apply list_add_lop; [exact (T3 l e Hl He)|apply RL|apply RE]
      |apply R_take_el, R_take_list; exact HR|apply hi_take_el, hi_take_list; auto|exact Hl]|supd_tac|supd_tac].
  - assert (Hl : (l < N)%nat) by (apply HO; left; auto). destruct HV.
    eapply step_ext; [eapply lop_step; [apply list_drop_lop; [exact (T1 l Hl)|apply RL|auto|auto|apply HB]
      |apply R_take_list; exact HR|apply hi_take_list; auto|exact Hl]|supd_tac|supd_tac].
  - assert (Hl : (l < N)%nat) by (apply HO; left; auto).
    eapply step_ext; [eapply lop_step; [apply list_clear_lop; [exact (T1 l Hl)|apply RL|apply HB]
      |apply R_take_list; exact HR|apply hi_take_list; auto|exact Hl]|supd_tac|supd_tac].
  - assert (Hl : (l < N)%nat) by (apply HO; left; auto). assert (He : (e < N)%nat) by (apply HO; right; left; auto).
    eapply step_ext; [eapply lop_step; [apply list_insert_lop; [exact (T3 l e Hl He)|apply RL|apply RE|auto]
      |apply R_take_el, R_take_list; exact HR|apply hi_take_el, hi_take_list; auto|exact Hl]|supd_tac|supd_tac].
  - unfold bind. rewrite (list_size_lop _ _ _ (RL l)). eexists _, _. split; [reflexivity|]. split; auto.
  - assert (He : (e < N)%nat) by (apply HO; left; auto). assert (Hl : (l < N)%nat) by (apply HO; right; left; auto).
    eapply eop_step; eauto. apply list_get_eop; auto.
    unfold own. intros x Hx. apply in_or_app. right. destruct (lists c l) eqn:El; [|destruct Hx].
    destruct Hx as [<-|[]]. eapply in_regs; eauto.
  - assert (Hl : (l < N)%nat) by (apply HO; left; auto). assert (He : (e < N)%nat) by (apply HO; right; left; auto).
    eapply step_ext; [eapply lop_step; [apply list_set_lop; [exact (T3 l e Hl He)|apply RL|apply RE]
      |apply R_take_el, R_take_list; exact HR|apply hi_take_el, hi_take_list; auto|exact Hl]|supd_tac|supd_tac].
  - assert (Hl : (l < N)%nat) by (apply HO; left; auto). destruct HV.
    eapply step_ext; [eapply lop_step; [apply list_swap_lop; [exact (T1 l Hl)|apply RL|auto|auto|apply HB]
      |apply R_take_list; exact HR|apply hi_take_list; auto|exact Hl]|supd_tac|supd_tac].
  - assert (Hl : (l < N)%nat) by (apply HO; left; auto).
    eapply step_ext; [eapply lop_step; [apply list_reverse_lop; [exact (T1 l Hl)|apply RL|apply HB]
      |apply R_take_list; exact HR|apply hi_take_list; auto|exact Hl]|supd_tac|supd_tac].
  - assert (Hl : (l < N)%nat) by (apply HO; left; auto).
    eapply step_ext; [eapply lop_step; [apply list_map_lop; [exact (T1 l Hl)|apply RL]
      |apply R_take_list; exact HR|apply hi_take_list; auto|exact Hl]|supd_tac|supd_tac].
  - assert (Hl : (l < N)%nat) by (apply HO; left; auto). assert (He : (e < N)%nat) by (apply HO; right; left; auto).
    eapply step_ext; [eapply lop_step; [apply list_from_lop; [exact (T2 e He)|apply RE]
      |apply R_take_el; exact HR|apply hi_take_el; auto|exact Hl]|supd_tac|supd_tac].
  - assert (Hl : (l < N)%nat) by (apply HO; left; auto). assert (Hl2 : (l2 < N)%nat) by (apply HO; right; left; auto).
    eapply step_ext; [eapply lop_step with (s0 := set_slist (set_slist s l None) l2 None);
      [apply list_concat_lop with (v1 := slists s l) (v2 := if Nat.eqb l l2 then None else slists s l2)
      |apply R_take_list, R_take_list; exact HR|apply hi_take_list, hi_take_list; auto|exact Hl]|supd_tac|supd_tac].
    + eapply I_perm; [|exact (T1 l Hl)]. apply Permutation_app_head.
      rewrite (own_take_list N (take_list c l) l2 Hl2) at 1. cbn. unfold rset at 1.
      rewrite (Nat.eqb_sym l2 l). destruct (Nat.eqb l l2); apply Permutation_refl.
    + apply RL.
    + destruct (Nat.eqb l l2); [exact Logic.I|apply RL].
  - unfold bind. rewrite (list_read_ok _ _ _ (RL l)). eexists _, _. split; [reflexivity|]. split; auto.
Qed.

Lemma cexec_all_ok N os : forall h c s, Inv N h c s -> Forall (cop_ok N) os -> fits os s ->
  exists c' h', cexec_all os c h = Some ((fst (sexec_all os s), c'), h') /\ Inv N h' c' (snd (sexec_all os s)).
Proof.
  induction os as [|o os IH]; intros h c s HI HO HF; cbn [cexec_all sexec_all].
  - exists c, h. split; [reflexivity|exact HI].
  - inversion HO; subst. cbn [fits] in HF. destruct HF as (HB & HF).
    destruct (cexec_ok N h c s o HI H1 HB) as (c1 & h1 & E1 & I1).
    destruct (IH h1 c1 _ I1 H2 HF) as (c2 & h2 & E2 & I2).
    exists c2, h2. unfold bind. rewrite E1. cbn [fst snd]. rewrite E2. cbn [fst snd]. split; [reflexivity|exact I2].
Qed.

(** [add_room] is FN(LIST(EL),add) whenever there is room *)
Lemma add_room_is_add a e h r : add_room (Some a) (Some e) h = Some r -> list_add (Some a) (Some e) h = Some r.
Proof.
  unfold add_room, list_add, list_grow, with_list, bind, ub. destruct (hget h a) as [[|rr s p]|] eqn:E; try discriminate.
  destruct (rr =? 1) eqn:Q1; [|discriminate]. destruct (len p + 1 <=? s) eqn:Q2; [|discriminate]. cbn [andb].
  unfold ret. rewrite E, Q2. auto.
Qed.

Definition cinit : cstate := mkc (fun _ => None) (fun _ => None).
Lemma Inv_init N : Inv N [] cinit sinit.
Proof.
  assert (E : own N cinit = []).
  { unfold own, regs. cbn. rewrite !flat_map_concat_map. induction (seq 0 N); auto. }
  split; [|split].
  - rewrite E. assert (G : forall a, hget [] a = None) by (intros [|a]; reflexivity).
    split; [|split; [|split]]; intros a; rewrite ?G; cbn; auto; try tauto; congruence.
  - split; intros; exact Logic.I.
  - intros i _. split; reflexivity.
Qed.

Lemma live_iff N h c s a : Inv N h c s -> (hget h a <> None <-> reach (own N c) h a).
Proof.
  intros (HI & _). split.
  - intros H. pose proof HI as (A & B & T & _). specialize (A a). specialize (B a H).
    destruct (Z_lt_dec 0 (cz a (own N c))) as [H1|H1]; [left; apply cz_in; auto|].
    pose proof (cz_nonneg a (own N c)). assert (H2 : In a (slots h)) by (apply cz_in; lia).
    apply slots_in in H2. destruct H2 as (l & Hl). right. exists l. split; auto.
    destruct (hget h l) as [[|r sz p]|] eqn:E; try destruct Hl.
    pose proof (list_not_slot _ _ _ _ _ _ HI E). pose proof HI as (A' & B' & _).
    specialize (A' l). specialize (B' l). rewrite E in *. cbn [refcnt] in *. apply cz_in.
    specialize (B' ltac:(discriminate)). lia.
  - apply reach_live; auto.
Qed.
Lemma in_own N c a : In a (own N c) <-> exists i, (i < N)%nat /\ (els c i = Some a \/ lists c i = Some a).
Proof.
  unfold own, regs. rewrite in_app_iff, !in_flat_map. split.
  - intros [(i & H1 & H2)|(i & H1 & H2)]; apply in_seq in H1; exists i; (split; [lia|]).
    + left. destruct (els c i); [destruct H2 as [->|[]]; auto|destruct H2].
    + right. destruct (lists c i); [destruct H2 as [->|[]]; auto|destruct H2].
  - intros (i & H & [E|E]); [left|right]; exists i; rewrite in_seq, E; (split; [lia|left; auto]).
Qed.

Lemma list_refine N os : Forall (cop_ok N) os -> fits os sinit ->
  exists c h, cexec_all os cinit [] = Some ((fst (sexec_all os sinit), c), h).
Proof.
  intros A B. destruct (cexec_all_ok N os _ _ _ (Inv_init N) A B) as (c & h & E & _). eauto.
Qed.
Lemma swap_same_position l pos h : list_swap l pos pos h = Some (l, h).
Proof. unfold list_swap. rewrite Z.eqb_refl. reflexivity. Qed.

Lemma fits_last os : forall s, fits os s -> forall l vs, slists (snd (sexec_all os s)) l = Some vs -> slen vs < 2 ^ 31.
Proof.
  induction os as [|o os IH]; intros s H l vs; cbn [sexec_all fits snd] in *.
  - apply H.
  - destruct H as (_ & H). apply IH; auto.
Qed.
Lemma sexec_dests o s : (forall l, ~ In l (list_dests o) -> slists (snd (sexec o s)) l = slists s l) /\
  (forall e, ~ In e (el_dests o) -> sels (snd (sexec o s)) e = sels s e).
Proof.
  destruct o; cbn; unfold supd; split; intros x Hx; repeat match goal with |- context [Nat.eqb ?a ?b] => destruct (Nat.eqb_spec a b); subst end; tauto.
Qed.
Lemma value_semantics N os o : Forall (cop_ok N) os -> fits os sinit -> cop_ok N o ->
  exists rs c h r c' h',
    cexec_all os cinit [] = Some ((rs, c), h) /\ cexec o c h = Some ((r, c'), h') /\
    (forall l, ~ In l (list_dests o) -> exists v,
       list_read (lists c l) h = Some (v, h) /\ list_read (lists c' l) h' = Some (v, h')) /\
    (forall e, ~ In e (el_dests o) -> exists v,
       el_read (els c e) h = Some (v, h) /\ el_read (els c' e) h' = Some (v, h')).
Proof.
  intros A B C. destruct (cexec_all_ok N os _ _ _ (Inv_init N) A B) as (c & h & E & HI).
  destruct (cexec_ok N h c _ o HI C (fits_last os _ B)) as (c' & h' & E' & HI').
  eexists _, c, h, _, c', h'. split; [exact E|]. split; [exact E'|].
  destruct (sexec_dests o (snd (sexec_all os sinit))) as (D1 & D2).
  destruct HI as (_ & (RE & RL) & _). destruct HI' as (_ & (RE' & RL') & _). split.
  - intros l Hl. eexists. split; [apply list_read_ok, RL|]. rewrite <- D1 by auto. apply list_read_ok, RL'.
  - intros e He. eexists. split; [apply el_read_ok, RE|]. rewrite <- D2 by auto. apply el_read_ok, RE'.
Qed.
Lemma live_referenced N os : Forall (cop_ok N) os -> fits os sinit ->
  exists rs c h, cexec_all os cinit [] = Some ((rs, c), h) /\
    forall a, hget h a <> None <->
      (exists i, els c i = Some a \/ lists c i = Some a) \/
      (exists i l r s p, lists c i = Some l /\ hget h l = Some (OList r s p) /\ In (Some a) p).
Proof.
  intros A B. destruct (cexec_all_ok N os _ _ _ (Inv_init N) A B) as (c & h & E & HI).
  eexists _, c, h. split; [exact E|]. intros a. rewrite (live_iff N h c _ a HI).
  pose proof HI as (II & (RE & RL) & HH). split.
  - intros [H|(l & H1 & H2)].
    + left. apply in_own in H. destruct H as (i & _ & H). eauto.
    + right. apply in_own in H1. destruct H1 as (i & Hi & [H1|H1]).
      * specialize (RE i). rewrite H1 in RE. destruct (erel_el _ _ _ RE) as (r & v & E1). rewrite E1 in H2. destruct H2.
      * destruct (hget h l) as [[|r s p]|] eqn:El; try destruct H2. exists i, l, r, s, p.
        split; [exact H1|]. split; [exact El|]. apply in_somes. exact H2.
  - assert (LT : forall i b, els c i = Some b \/ lists c i = Some b -> In b (own N c)).
    { intros i b Hb. apply in_own. exists i. split; auto. destruct (lt_dec i N); auto.
      destruct (HH i ltac:(lia)). destruct Hb; congruence. }
    intros [(i & H)|(i & l & r & s & p & H1 & H2 & H3)].
    + left. eauto.
    + right. exists l. split; [eauto|]. rewrite H2. apply in_somes. exact H3.
Qed.
Lemma fits_app os os' : forall s, fits os s -> fits os' (snd (sexec_all os s)) -> fits (os ++ os') s.
Proof.
  induction os as [|o os IH]; intros s A B; cbn [app sexec_all fits snd] in *; auto.
  destruct A as (A1 & A2). split; auto.
Qed.
Lemma sexec_all_app os os' : forall s, snd (sexec_all (os ++ os') s) = snd (sexec_all os' (snd (sexec_all os s))).
Proof. induction os as [|o os IH]; intros s; cbn [app sexec_all snd]; auto. Qed.
Lemma fits_frees ls es : forall s, (forall l vs, slists s l = Some vs -> slen vs < 2 ^ 31) ->
  fits (map CFree ls ++ map CElFree es) s /\
  (forall l, In l ls -> slists (snd (sexec_all (map CFree ls ++ map CElFree es) s)) l = None) /\
  (forall l, slists s l = None -> slists (snd (sexec_all (map CFree ls ++ map CElFree es) s)) l = None) /\
  (forall e, In e es -> sels (snd (sexec_all (map CFree ls ++ map CElFree es) s)) e = None) /\
  (forall e, sels s e = None -> sels (snd (sexec_all (map CFree ls ++ map CElFree es) s)) e = None).
Proof.
  induction ls as [|l ls IH]; intros s H; cbn [map app].
  - revert s H. induction es as [|e es IH]; intros s H; cbn [map fits sexec_all snd sexec fst].
    + split; [split; [exact H|exact Logic.I]|]. cbn. tauto.
    + destruct (IH (set_sel s e None)) as (A & B & C & D & E); [exact H|].
      split; [split; [exact H|exact A]|]. split; [intros ? []|]. split; [intros l Hl; apply C; exact Hl|]. split.
      * intros x [<-|Hx]; [|apply D; auto]. apply E. cbn. unfold supd. rewrite Nat.eqb_refl. reflexivity.
      * intros x Hx. apply E. cbn. unfold supd. destruct (Nat.eqb x e); auto.
  - cbn [map fits sexec_all snd sexec fst].
    destruct (IH (set_slist s l None)) as (A & B & C & D & E).
    { intros x vs. cbn. unfold supd. destruct (Nat.eqb x l); [discriminate|apply H]. }
    split; [split; [exact H|exact A]|]. split; [|split; [|split]].
    + intros x [<-|Hx]; [|apply B; auto]. apply C. cbn. unfold supd. rewrite Nat.eqb_refl. reflexivity.
    + intros x Hx. apply C. cbn. unfold supd. destruct (Nat.eqb x l); auto.
    + exact D.
    + intros x Hx. apply E. exact Hx.
Qed.
Lemma no_leaks N os : Forall (cop_ok N) os -> fits os sinit ->
  exists rs c h, cexec_all (os ++ map CFree (seq 0 N) ++ map CElFree (seq 0 N)) cinit [] = Some ((rs, c), h) /\
    forall a, hget h a = None.
Proof.
  intros A B.
  destruct (fits_frees (seq 0 N) (seq 0 N) (snd (sexec_all os sinit)) (fits_last os _ B)) as (F1 & F2 & _ & F4 & _).
  set (os2 := map CFree (seq 0 N) ++ map CElFree (seq 0 N)) in *.
  assert (A' : Forall (cop_ok N) (os ++ os2)).
  { apply Forall_app. split; auto. apply Forall_app. split; apply Forall_forall; intros o Ho; apply in_map_iff in Ho;
      destruct Ho as (i & <- & Hi); apply in_seq in Hi; (split; [|exact Logic.I]); cbn; intros r [<-|[]]; lia. }
  destruct (cexec_all_ok N _ _ _ _ (Inv_init N) A' (fits_app _ _ _ B F1)) as (c & h & E & HI).
  eexists _, c, h. split; [exact E|]. intros a.
  destruct (hget h a) as [o|] eqn:Ea; auto. exfalso.
  assert (Hn : In a (own N c) -> False).
  { intros H. apply in_own in H. destruct H as (i & Hi & H). destruct HI as (_ & (RE & RL) & _).
    rewrite sexec_all_app in *. destruct H as [H|H].
    - specialize (RE i). rewrite F4, H in RE by (apply in_seq; lia). exact RE.
    - specialize (RL i). rewrite F2, H in RL by (apply in_seq; lia). exact RL. }
  assert (Hall : forall b, In b (own N c) -> False).
  { intros b H. apply in_own in H. destruct H as (i & Hi & H). destruct HI as (_ & (RE & RL) & _).
    rewrite sexec_all_app in *. destruct H as [H|H].
    - specialize (RE i). rewrite F4, H in RE by (apply in_seq; lia). exact RE.
    - specialize (RL i). rewrite F2, H in RL by (apply in_seq; lia). exact RL. }
  assert (reach (own N c) h a) by (eapply live_iff; [exact HI|congruence]).
  destruct H as [H|(l & H & _)]; eauto.
Qed.

(** a way to check [fits] for concrete histories *)
Fixpoint fitsb (N : nat) (os : list cop) (s : sstate) : bool :=
  forallb (fun l => match slists s l with Some vs => slen vs <? 2 ^ 31 | None => true end) (seq 0 N) &&
  match os with [] => true | o :: os' => fitsb N os' (snd (sexec o s)) end.
Lemma sexec_hi N o s : cop_ok N o -> (forall l, (N <= l)%nat -> slists s l = None) ->
  forall l, (N <= l)%nat -> slists (snd (sexec o s)) l = None.
Proof.
  intros (H & _) A l Hl. rewrite (proj1 (sexec_dests o s)); auto.
  intros X. assert (In l (regs_of o)) by (destruct o; cbn in *; tauto). specialize (H l H0). lia.
Qed.
Lemma fitsb_ok N os : forall s, Forall (cop_ok N) os -> (forall l, (N <= l)%nat -> slists s l = None) ->
  fitsb N os s = true -> fits os s.
Proof.
  assert (G : forall s, (forall l, (N <= l)%nat -> slists s l = None) ->
     forallb (fun l => match slists s l with Some vs => slen vs <? 2 ^ 31 | None => true end) (seq 0 N) = true ->
     forall l vs, slists s l = Some vs -> slen vs < 2 ^ 31).
  { intros s A B l vs E. destruct (le_lt_dec N l); [rewrite A in E by auto; discriminate|].
    rewrite forallb_forall in B. specialize (B l ltac:(apply in_seq; lia)). cbn beta in B. rewrite E in B. lia. }
  induction os as [|o os IH]; intros s HO A B; cbn [fitsb fits] in *; apply andb_true_iff in B; destruct B as (B1 & B2).
  - split; [|exact Logic.I]. apply G; auto.
  - inversion HO; subst. split; [apply G; auto|]. apply IH; auto. apply sexec_hi; auto.
Qed.
