(** Proofs about TarjanModel. *)
From Coq Require Import ZArith List Bool Arith Lia ZifyBool Relations Sorted Permutation.
From Verif Require Import TarjanModel TarjanSpec.
Import ListNotations.
Open Scope Z_scope.

Section Tarjan.
Variable len : nat.
Variable follows : nat -> nat -> option bool.
Notation edge := (edge len follows).
Notation reach := (reach len follows).
Notation is_scc := (is_scc len follows).
Notation topological := (topological len follows).
Notation decomposition := (decomposition len follows).
Notation vis g v := (0 <= nidx g v).

Lemma upd_same {A} (f : nat -> A) i a : upd f i a i = a.
Proof. unfold upd. rewrite Nat.eqb_refl. reflexivity. Qed.
Lemma upd_other {A} (f : nat -> A) i a j : j <> i -> upd f i a j = f j.
Proof. unfold upd. intros H. apply Nat.eqb_neq in H. rewrite H. reflexivity. Qed.

Lemma reach_refl x : reach x x. Proof. apply rt_refl. Qed.
Lemma reach_trans x y z : reach x y -> reach y z -> reach x z. Proof. apply rt_trans. Qed.
Lemma reach_edge x y : edge x y -> reach x y. Proof. apply rt_step. Qed.

(** a set closed under edges is closed under reachability *)
Lemma reach_closed (P : nat -> Prop) : (forall x y, P x -> edge x y -> P y) ->
  forall x y, reach x y -> P x -> P y.
Proof. intros H x y R. induction R; eauto. Qed.

(** ** the invariant; [gray] are the nodes on the call stack *)
Record inv (g : graph) (gray : list nat) (cs : list (list nat)) : Prop := {
  i_order : order g = encode cs;
  i_errs : errs g = [];
  i_vis : forall v, vis g v <-> In v (stack g) \/ In v (concat cs);
  i_lt : forall v, In v (stack g ++ concat cs) -> (v < len)%nat;
  i_nodup : NoDup (stack g ++ concat cs);
  i_on : forall v, vis g v -> (non g v = true <-> In v (stack g));
  i_cnt : forall v, nidx g v < gindex g;
  i_cnt0 : 0 <= gindex g;
  i_sort : StronglySorted (fun a b => nidx g b < nidx g a) (stack g);
  i_gray : forall x, In x gray -> In x (stack g);
  i_togray : forall y, In y (stack g) -> exists x, In x gray /\ nidx g x <= nidx g y /\ reach y x;
  i_reach : forall x y, In x (stack g) -> In y (stack g) -> nidx g x <= nidx g y -> reach x y;
  i_black : forall v w, vis g v -> ~ In v gray -> edge v w -> vis g w;
  i_dec : decomposition cs
}.

Record ext (g g' : graph) : Prop := {
  e_idx : forall v, vis g v -> nidx g' v = nidx g v;
  e_min : forall v, vis g v -> nmin g' v = nmin g v;
  e_cnt : gindex g <= gindex g';
  e_new : forall v, ~ vis g v -> vis g' v -> gindex g <= nidx g' v
}.
Lemma ext_vis g g' v : ext g g' -> vis g v -> vis g' v.
Proof. intros E H. rewrite (e_idx _ _ E v H). exact H. Qed.
Lemma ext_trans g1 g2 g3 : ext g1 g2 -> ext g2 g3 -> ext g1 g3.
Proof.
  intros E1 E2. constructor.
  - intros v H. rewrite (e_idx _ _ E2), (e_idx _ _ E1); auto. exact (ext_vis _ _ _ E1 H).
  - intros v H. rewrite (e_min _ _ E2), (e_min _ _ E1); auto. exact (ext_vis _ _ _ E1 H).
  - pose proof (e_cnt _ _ E1). pose proof (e_cnt _ _ E2). lia.
  - intros v H1 H3. destruct (Z_le_dec 0 (nidx g2 v)) as [H2|H2].
    + rewrite (e_idx _ _ E2 v H2). apply (e_new _ _ E1); auto.
    + pose proof (e_new _ _ E2 v H2 H3). pose proof (e_cnt _ _ E1). lia.
Qed.

(** number of unvisited nodes *)
Definition unv (g : graph) : nat := length (filter (fun v => nidx g v <? 0) (seq 0 len)).
Lemma filter_len_le {A} (p q : A -> bool) l : (forall x, In x l -> p x = true -> q x = true) ->
  (length (filter p l) <= length (filter q l))%nat.
Proof.
  induction l as [|x l IH]; cbn; intros H; [lia|].
  assert (IH' : (length (filter p l) <= length (filter q l))%nat) by auto.
  destruct (p x) eqn:E; [rewrite (H x) by auto; cbn; lia|]. destruct (q x); cbn; lia.
Qed.
Lemma filter_len_lt {A} (p q : A -> bool) l x : (forall x, In x l -> p x = true -> q x = true) ->
  In x l -> p x = false -> q x = true -> (length (filter p l) < length (filter q l))%nat.
Proof.
  induction l as [|y l IH]; cbn; intros H Hin Hp Hq; [tauto|].
  assert (Hle : (length (filter p l) <= length (filter q l))%nat) by (apply filter_len_le; auto).
  destruct Hin as [->|Hin].
  - rewrite Hp, Hq. cbn. lia.
  - assert (IH' : (length (filter p l) < length (filter q l))%nat) by auto.
    destruct (p y) eqn:E; [rewrite (H y) by auto; cbn; lia|]. destruct (q y); cbn; lia.
Qed.
Lemma unv_ext g g' : ext g g' -> (unv g' <= unv g)%nat.
Proof.
  intros E. apply filter_len_le. intros v _ H. destruct (Z_le_dec 0 (nidx g v)) as [V|V]; [|lia].
  pose proof (e_idx _ _ E v V). lia.
Qed.
Lemma unv_pos g i : (i < len)%nat -> nidx g i < 0 -> (0 < unv g)%nat.
Proof.
  intros H1 H2. unfold unv.
  assert (Hin : In i (filter (fun v => nidx g v <? 0) (seq 0 len))).
  { apply filter_In. split; [apply in_seq; lia|lia]. }
  destruct (filter _ _); [destruct Hin|cbn; lia].
Qed.

(** ** popping a component *)
Lemma pop_ok s i stk0 : ~ In i s -> forall g,
  (length (order g) + length s + 2 <= 2 * len)%nat ->
  exists g', pop len (s ++ i :: stk0) i g = Some g' /\ nidx g' = nidx g /\ nmin g' = nmin g /\
    stack g' = stk0 /\ gindex g' = gindex g /\ errs g' = errs g /\
    order g' = order g ++ map Z.of_nat (s ++ [i]) ++ [-1] /\
    forall v, non g' v = if in_dec Nat.eq_dec v (s ++ [i]) then false else non g v.
Proof.
  induction s as [|j s IH]; intros Hni g Hl; cbn [app pop].
  - replace (length (order g) <? 2 * len)%nat with true by (cbn [length] in Hl; lia).
    rewrite Nat.eqb_refl. cbn [order]. rewrite app_length. cbn [length].
    replace (length (order g) + 1 <? 2 * len)%nat with true by (cbn [length] in Hl; lia).
    eexists. split; [reflexivity|]. cbn [nidx nmin stack gindex errs order non map app].
    repeat split; auto.
    + rewrite <- app_assoc. reflexivity.
    + intros v. unfold upd. destruct (Nat.eqb_spec v i) as [->|Hv]; destruct (in_dec Nat.eq_dec _ [i]) as [Hin|Hin]; auto.
      * exfalso. apply Hin. left. reflexivity.
      * destruct Hin as [E|[]]; congruence.
  - cbn [length] in Hl. replace (length (order g) <? 2 * len)%nat with true by lia.
    destruct (Nat.eqb_spec j i) as [->|Hji]; [exfalso; apply Hni; left; reflexivity|].
    match goal with |- context [pop len _ i ?x] => set (g1 := x) end.
    destruct (IH ltac:(intros H; apply Hni; right; exact H) g1) as (g' & E & E1 & E2 & E3 & E4 & E5 & E6 & E7).
    { unfold g1. cbn [order]. rewrite app_length. cbn [length]. lia. }
    exists g'. split; [exact E|]. rewrite E1, E2, E4, E5, E6. unfold g1.
    cbn [nidx nmin stack gindex errs order non map app]. repeat split; auto.
    + rewrite <- !app_assoc. reflexivity.
    + intros v. rewrite E7. unfold g1. cbn [non]. unfold upd.
      destruct (in_dec Nat.eq_dec v (s ++ [i])) as [H1|H1]; destruct (in_dec Nat.eq_dec v (j :: s ++ [i])) as [H2|H2]; auto.
      * exfalso. apply H2. right. exact H1.
      * destruct (Nat.eqb_spec v j); auto. destruct H2; [congruence|contradiction].
      * destruct (Nat.eqb_spec v j); auto. exfalso. apply H2. left. auto.
Qed.

Lemma encode_length cs : (forall c, In c cs -> c <> []) ->
  (length (encode cs) <= 2 * length (concat cs))%nat.
Proof.
  induction cs as [|c cs IH]; cbn; intros H; [lia|].
  rewrite !app_length, map_length. cbn [length].
  assert (length (encode cs) <= 2 * length (concat cs))%nat by auto. unfold encode in *.
  assert (c <> []) by auto. destruct c; [congruence|]. cbn [length]. lia.
Qed.
Lemma encode_app cs c : encode (cs ++ [c]) = encode cs ++ map Z.of_nat c ++ [-1].
Proof. unfold encode. rewrite flat_map_app. cbn [flat_map]. rewrite app_nil_r. reflexivity. Qed.
Lemma concat_snoc {A} (cs : list (list A)) c : concat (cs ++ [c]) = concat cs ++ c.
Proof. rewrite concat_app. cbn. rewrite app_nil_r. reflexivity. Qed.

Lemma nodup_bound (l : list nat) : NoDup l -> (forall v, In v l -> (v < len)%nat) -> (length l <= len)%nat.
Proof.
  intros N H. rewrite <- (seq_length len 0). apply NoDup_incl_length; [exact N|].
  intros v Hv. apply in_seq. specialize (H v Hv). lia.
Qed.

(** closedness of the components found so far *)
Lemma dec_closed cs x y : decomposition cs -> In x (concat cs) -> edge x y -> In y (concat cs).
Proof.
  intros (_ & _ & T) Hx E. apply in_concat in Hx as (c & Hc & Hxc).
  apply in_split in Hc as (pre & post & ->).
  pose proof (T pre c post x y eq_refl Hxc E) as H.
  rewrite concat_snoc in H. rewrite concat_app. cbn [concat]. rewrite !in_app_iff in *. tauto.
Qed.

(** adding a component *)
Lemma dec_snoc cs c : decomposition cs -> c <> [] -> NoDup (c ++ concat cs) ->
  (forall x y, In x c -> In y c -> reach x y) ->
  (forall x y, In x c -> edge x y -> In y c \/ In y (concat cs)) ->
  decomposition (cs ++ [c]).
Proof.
  intros D Hne Hnd Hm Hcl. pose proof D as (N & S & T). split; [|split].
  - rewrite concat_snoc. eapply Permutation_NoDup; [apply Permutation_app_comm|exact Hnd].
  - intros c' Hc'. apply in_app_or in Hc' as [Hc'|[<-|[]]]; [exact (S c' Hc')|].
    split; [exact Hne|]. intros x Hx y. split; [intros Hy; split; auto|].
    intros [Rxy Ryx].
    assert (H : In y c \/ In y (concat cs)).
    { apply (reach_closed (fun v => In v c \/ In v (concat cs))) with x; auto.
      intros v w [Hv|Hv] E; [eauto|right; exact (dec_closed cs v w D Hv E)]. }
    destruct H as [H|H]; [exact H|]. exfalso.
    assert (Hxc : In x (concat cs)).
    { apply (reach_closed (fun v => In v (concat cs))) with y; auto. intros v w Hv E. exact (dec_closed cs v w D Hv E). }
    clear - Hnd Hx Hxc. induction c as [|z c IH]; [destruct Hx|]. cbn [app] in Hnd.
    inversion Hnd; subst. destruct Hx as [->|Hx]; [apply H1; apply in_or_app; auto|auto].
  - intros pre c' post x y E Hx Exy.
    destruct post as [|p post] using rev_ind.
    + apply app_inj_tail in E as [<- <-]. rewrite concat_snoc. apply in_or_app.
      destruct (Hcl x y Hx Exy); auto.
    + clear IHpost. rewrite app_comm_cons, app_assoc in E. apply app_inj_tail in E as [E _].
      exact (T pre c' post x y E Hx Exy).
Qed.

Lemma sorted_app_lt (g : graph) s i stk0 :
  StronglySorted (fun a b => nidx g b < nidx g a) (s ++ i :: stk0) ->
  (forall y, In y stk0 -> nidx g y < nidx g i) /\ (forall x, In x s -> nidx g i < nidx g x) /\
  StronglySorted (fun a b => nidx g b < nidx g a) stk0.
Proof.
  induction s as [|a s IH]; cbn [app]; intros H; inversion H as [|? ? Hs Hf]; subst.
  - rewrite Forall_forall in Hf. repeat split; auto. intros x [].
  - destruct (IH Hs) as (A & B & C). repeat split; auto. intros x [->|Hx]; auto.
    rewrite Forall_forall in Hf. apply Hf. apply in_or_app. right. left. reflexivity.
Qed.

Hypothesis follows_total : forall i j, (i < len)%nat -> (j < len)%nat -> follows i j <> None.

Definition post (g : graph) (gray : list nat) (cs : list (list nat)) (i : nat) (g' : graph) : Prop :=
  exists cs' s, inv g' gray cs' /\ stack g' = s ++ stack g /\ ext g g' /\
    nidx g' i = gindex g /\ nmin g' i <= nidx g' i /\
    (forall x y, In x s -> In y (stack g) -> edge x y -> nmin g' i <= nidx g' y) /\
    (forall v, vis g' v -> ~ vis g v -> reach i v) /\
    (exists new, cs' = cs ++ new) /\
    (s = [] /\ nmin g' i = nidx g' i /\ (exists pre c, cs' = pre ++ [c] /\ In i c) \/
     In i s /\ exists y, In y (stack g) /\ nidx g' y = nmin g' i /\ reach i y).

Definition pre (g : graph) gray cs i : Prop :=
  inv g gray cs /\ (i < len)%nat /\ nidx g i < 0 /\ (forall x, In x gray -> reach x i).

Definition linv (g0 : graph) (gray : list nat) (cs0 : list (list nat)) (i : nat) (js : list nat) (g : graph) : Prop :=
  exists cs s, inv g (i :: gray) cs /\ stack g = s ++ i :: stack g0 /\ ext g0 g /\
    nidx g i = gindex g0 /\ nmin g i <= nidx g i /\
    (exists y, In y (stack g) /\ nidx g y = nmin g i /\ reach i y) /\
    (forall x y, In x s -> In y (stack g0) -> edge x y -> nmin g i <= nidx g y) /\
    (forall j, edge i j -> In j js \/ (vis g j /\ (In j (stack g0) -> nmin g i <= nidx g j))) /\
    (forall v, vis g v -> ~ vis g0 v -> reach i v) /\
    (exists new, cs = cs0 ++ new).

Lemma enter_ok g gray cs i : pre g gray cs i ->
  exists g', enter len g i = Some g' /\ (unv g' < unv g)%nat /\
    linv g gray cs i (rev (seq 0 len)) g'.
Proof.
  intros (I & Hi & Hn & Hg). destruct I.
  assert (Hnst : ~ In i (stack g) /\ ~ In i (concat cs)).
  { split; intros H; assert (vis g i) by (apply i_vis0; auto); lia. }
  assert (Hb : (length (stack g) < len)%nat).
  { assert (Hl : (length (i :: stack g) <= len)%nat); [|cbn in Hl; lia]. apply nodup_bound.
    - constructor; [tauto|]. clear - i_nodup0. induction (stack g) as [|a l IH]; [constructor|].
      cbn [app] in i_nodup0. inversion i_nodup0; subst. constructor; auto.
      intros H. apply H1. apply in_or_app. auto.
    - intros v [<-|Hv]; [exact Hi|]. apply i_lt0. apply in_or_app. auto. }
  unfold enter. replace (length (stack g) <? len)%nat with true by lia.
  eexists. split; [reflexivity|]. split.
  { apply filter_len_lt with i; cbn [nidx].
    - intros v _. unfold upd. destruct (Nat.eqb_spec v i); subst; lia.
    - apply in_seq. lia.
    - rewrite upd_same. lia.
    - lia. }
  assert (Hidx : forall v, vis g v -> upd (nidx g) i (gindex g) v = nidx g v).
  { intros v Hv. apply upd_other. intros ->. lia. }
  exists cs, []. cbn [stack app nidx nmin gindex]. split; [|split; [reflexivity|]].
  - constructor; cbn [order errs nidx stack non gindex]; auto.
    + intros v. unfold upd. destruct (Nat.eqb_spec v i) as [->|Hv].
      * split; intros; [left; left; reflexivity|lia].
      * rewrite i_vis0. cbn [In]. intuition congruence.
    + intros v [<-|Hv]; auto.
    + cbn [app]. constructor; [|exact i_nodup0]. intros H. apply in_app_or in H. tauto.
    + intros v. unfold upd. destruct (Nat.eqb_spec v i) as [->|Hv].
      * intros _. split; auto. intros _. left. reflexivity.
      * intros H. rewrite (i_on0 v H). cbn [In]. intuition congruence.
    + intros v. unfold upd. destruct (Nat.eqb_spec v i); [lia|]. specialize (i_cnt1 v). lia.
    + lia.
    + constructor.
      * clear - i_sort0 Hidx i_vis0.
        assert (Hin : forall v, In v (stack g) -> vis g v) by (intros; apply i_vis0; auto).
        clear i_vis0. induction i_sort0 as [|a l S IH F]; constructor.
        -- apply IH. intros v Hv. apply Hin. right. exact Hv.
        -- rewrite Forall_forall in *. intros b Hb. rewrite !Hidx; auto.
           ++ apply Hin. left. reflexivity.
           ++ apply Hin. right. exact Hb.
      * apply Forall_forall. intros b Hb0. rewrite upd_same, Hidx by (apply i_vis0; auto). apply i_cnt1.
    + intros x [<-|Hx]; [left; reflexivity|right; auto].
    + intros y [<-|Hy].
      * exists i. split; [left; reflexivity|]. split; [lia|apply reach_refl].
      * destruct (i_togray0 y Hy) as (x & Hx & Lx & Rx). exists x. split; [right; exact Hx|].
        split; [|exact Rx]. rewrite !Hidx by (apply i_vis0; auto). exact Lx.
    + intros x y Hx Hy L. destruct Hy as [<-|Hy].
      * destruct Hx as [<-|Hx]; [apply reach_refl|].
        destruct (i_togray0 x Hx) as (z & Hz & _ & Rz). eapply reach_trans; eauto.
      * destruct Hx as [<-|Hx].
        -- exfalso. rewrite upd_same, Hidx in L by (apply i_vis0; auto). specialize (i_cnt1 y). lia.
        -- rewrite !Hidx in L by (apply i_vis0; auto). auto.
    + intros v w Hv Hng E.
      assert (Hvi : v <> i) by (intros ->; apply Hng; left; reflexivity).
      rewrite upd_other in Hv by exact Hvi.
      assert (Hw : vis g w) by (apply (i_black0 v w Hv); auto; intros H; apply Hng; right; exact H).
      rewrite Hidx; auto.
  - rewrite !upd_same.
    split; [constructor; cbn [nidx nmin gindex]|].
    + intros v Hv. apply Hidx. exact Hv.
    + intros v Hv. apply upd_other. intros ->. lia.
    + lia.
    + intros v Hv. unfold upd. destruct (Nat.eqb_spec v i); [lia|]. intros. contradiction.
    + split; [reflexivity|]. split; [lia|]. split.
      { exists i. split; [left; reflexivity|]. rewrite upd_same. split; [reflexivity|apply reach_refl]. }
      split; [intros x y []|]. split; [|split; [|exists []; rewrite app_nil_r; reflexivity]].
      * intros j (_ & Hj & _). left. apply in_rev. rewrite rev_involutive. apply in_seq. lia.
      * intros v. unfold upd. destruct (Nat.eqb_spec v i) as [->|Hv]; [intros; apply reach_refl|intros; contradiction].
Qed.

(** dropping a value of j that has been handled *)
Lemma linv_skip g0 gray cs0 i j js g : linv g0 gray cs0 i (j :: js) g ->
  (edge i j -> vis g j /\ (In j (stack g0) -> nmin g i <= nidx g j)) ->
  linv g0 gray cs0 i js g.
Proof.
  intros (cs & s & A & B & C & D & E & F & G & H & K & L) Hj. exists cs, s.
  refine (conj A (conj B (conj C (conj D (conj E (conj F (conj G (conj _ (conj K L))))))))).
  intros j' Ej'. destruct (H j' Ej') as [[->|Hin]|Hv]; auto.
Qed.

(** lowering min_index *)
Lemma inv_set_min g gray cs i m : inv g gray cs -> inv (set_min g i m) gray cs.
Proof. intros []. constructor; auto. Qed.

Lemma linv_set_min g0 gray cs0 i js g m : linv g0 gray cs0 i js g -> ~ vis g0 i -> m <= nmin g i ->
  (exists y, In y (stack g) /\ nidx g y = m /\ reach i y) -> linv g0 gray cs0 i js (set_min g i m).
Proof.
  intros (cs & s & A & B & C & D & E & F & G & H & K & L) Hi Hm Hy. exists cs, s.
  cbn [set_min stack nidx nmin]. rewrite !upd_same.
  split; [apply inv_set_min; exact A|]. split; [exact B|]. split.
  { destruct C. constructor; auto. intros v Hv. cbn [set_min nmin]. rewrite upd_other; auto. intros ->. contradiction. }
  split; [exact D|]. split; [lia|]. split; [exact Hy|]. split.
  { intros x y Hx Hy' Exy. specialize (G x y Hx Hy' Exy). lia. }
  split; [|split; [exact K|exact L]].
  intros j Ej. destruct (H j Ej) as [Hin|[Hv Hs]]; [auto|]. right. split; [exact Hv|]. intros Hj. specialize (Hs Hj). lia.
Qed.

Lemma comp_loop_ok rec depth g0 gray cs0 i f :
  (i < len)%nat -> nidx g0 i < 0 -> (forall x, In x gray -> reach x i) ->
  (forall g gray cs j, pre g gray cs j -> (unv g <= f)%nat -> exists b g', rec g j = Some (b, g') /\ post g gray cs j g') ->
  forall js g, (forall j, In j js -> (j < len)%nat) -> linv g0 gray cs0 i js g -> (unv g <= f)%nat ->
  exists g', comp_loop follows rec depth i js g = Some (true, g') /\ linv g0 gray cs0 i [] g'.
Proof.
  intros Hi Hi0 Hgray Hrec. induction js as [|j js IH]; intros g Hjs Lg Hf; cbn [comp_loop].
  { exists g. auto. }
  assert (Hj : (j < len)%nat) by (apply Hjs; left; reflexivity).
  assert (Hjs' : forall j, In j js -> (j < len)%nat) by (intros; apply Hjs; right; assumption).
  pose proof Lg as (cs & s & A & B & C & D & E & F & G & H & K & L).
  assert (Hvi : vis g i).
  { apply (i_vis _ _ _ A). left. rewrite B. apply in_or_app. right. left. reflexivity. }
  assert (Hst0 : forall y, In y (stack g0) -> nidx g y < nidx g i /\ In y (stack g)).
  { pose proof (i_sort _ _ _ A) as S. rewrite B in S. apply sorted_app_lt in S as (S1 & _ & _).
    intros y Hy. split; [auto|]. rewrite B. apply in_or_app. right. right. exact Hy. }
  destruct (Nat.eqb_spec j i) as [->|Hji].
  { apply IH; auto. apply linv_skip with i; [exact Lg|]. intros _. split; [exact Hvi|].
    intros Hin. destruct (Hst0 i Hin). lia. }
  destruct ((0 <=? nidx g j) && (negb (non g j) || (nmin g i <? nidx g j))) eqn:Cond.
  { apply IH; auto. apply linv_skip with j; [exact Lg|]. intros _. split; [lia|]. intros Hin.
    destruct (Hst0 j Hin) as [_ Hst]. apply (i_on _ _ _ A) in Hst; [|lia]. lia. }
  destruct (follows i j) as [[|]|] eqn:Fo; [| |destruct (follows_total i j Hi Hj Fo)].
  2:{ apply IH; auto. apply linv_skip with j; [exact Lg|]. intros (_ & _ & Ef). congruence. }
  assert (Eij : edge i j) by (repeat split; assumption).
  destruct (Z.ltb_spec (nidx g j) 0) as [Hnv|Hv].
  - (* recursive call *)
    destruct (Hrec g (i :: gray) cs j) as (b & g' & Er & P).
    { split; [exact A|]. split; [exact Hj|]. split; [exact Hnv|].
      intros x [<-|Hx]; [apply reach_edge; exact Eij|].
      eapply reach_trans; [apply Hgray; exact Hx|apply reach_edge; exact Eij]. }
    { exact Hf. }
    rewrite Er. destruct P as (cs' & s' & A' & B' & C' & D' & E' & G' & K' & (new & L') & R').
    assert (Hi' : nidx g' i = nidx g i) by (apply (e_idx _ _ C'); exact Hvi).
    assert (Hmi' : nmin g' i = nmin g i) by (apply (e_min _ _ C'); exact Hvi).
    assert (Hst0v : forall y, In y (stack g0) -> nidx g' y = nidx g y).
    { intros y Hy. apply (e_idx _ _ C'). apply (i_vis _ _ _ A). left. apply Hst0. exact Hy. }
    (* loop invariant for any m below both minima *)
    assert (Hnew : forall m, m = Z.min (nmin g' j) (nmin g' i) ->
      linv g0 gray cs0 i js (set_min g' i m)).
    { intros m Hm. exists cs', (s' ++ s). cbn [set_min stack nidx nmin]. rewrite !upd_same.
      split; [apply inv_set_min; exact A'|]. split; [rewrite B', B, app_assoc; reflexivity|].
      split.
      { destruct (ext_trans _ _ _ C C'). constructor; auto. intros v V. cbn [set_min nmin]. rewrite upd_other; auto.
        intros ->. lia. }
      split; [congruence|]. split; [lia|]. split.
      { destruct (Z_le_dec (nmin g' i) (nmin g' j)) as [Le|Gt].
        - destruct F as (y & Hy & Ey & Ry). exists y. split; [rewrite B'; apply in_or_app; auto|].
          split; [|exact Ry]. rewrite (e_idx _ _ C') by (apply (i_vis _ _ _ A); auto). lia.
        - destruct R' as [(_ & Em & _)|(_ & y & Hy & Ey & Ry)].
          + exfalso. pose proof (i_cnt _ _ _ A i). lia.
          + exists y. split; [rewrite B'; apply in_or_app; auto|]. split; [lia|].
            eapply reach_trans; [apply reach_edge; exact Eij|exact Ry]. }
      split.
      { intros x y Hx Hy Exy. apply in_app_or in Hx as [Hx|Hx].
        - pose proof (G' x y Hx (proj2 (Hst0 y Hy)) Exy). lia.
        - pose proof (G x y Hx Hy Exy). rewrite Hst0v by exact Hy. lia. }
      split.
      { intros j' Ej'. destruct (H j' Ej') as [[->|Hin]|[Hv Hs]].
        - right. pose proof (i_cnt0 _ _ _ A). split; [lia|]. intros Hin. destruct (Hst0 j' Hin) as [_ Hst].
          assert (vis g j') by (apply (i_vis _ _ _ A); auto). lia.
        - left. exact Hin.
        - right. split; [exact (ext_vis _ _ _ C' Hv)|]. intros Hin. specialize (Hs Hin).
          rewrite Hst0v by exact Hin. lia. }
      split; [|destruct L as (new0 & ->); exists (new0 ++ new); rewrite L', app_assoc; reflexivity].
      intros v Hv Hv0. destruct (Z_le_dec 0 (nidx g v)) as [V|V]; [exact (K v V Hv0)|].
      eapply reach_trans; [apply reach_edge; exact Eij|exact (K' v Hv V)]. }
    assert (Hu' : (unv g' <= f)%nat) by (pose proof (unv_ext _ _ C'); lia).
    destruct (Z.ltb_spec (nmin g' j) (nmin g' i)) as [Lt|Ge].
    + apply IH; auto. apply Hnew. lia.
    + (* g' itself, which is set_min g' i (nmin g' i) up to extensionality of nmin *)
      apply IH; auto. specialize (Hnew (nmin g' i) ltac:(lia)).
      destruct Hnew as (cs1 & s1 & N1 & N2 & N3 & N4 & N5 & N6 & N7 & N8 & N9 & N10).
      cbn [set_min stack nidx nmin] in *. rewrite upd_same in *. exists cs1, s1.
      split; [destruct N1; constructor; assumption|]. split; [exact N2|]. split; [exact (ext_trans _ _ _ C C')|]. split; [exact N4|]. split; [exact N5|].
      split; [exact N6|]. split; [exact N7|]. split; [exact N8|]. split; [exact N9|exact N10].
  - (* j is on the stack *)
    assert (Hon : In j (stack g)).
    { apply (i_on _ _ _ A); [exact Hv|]. destruct (non g j); [reflexivity|]. cbn in Cond. lia. }
    assert (Hle : nidx g j <= nmin g i) by (destruct (non g j); cbn in Cond; lia).
    destruct (Z.ltb_spec (nidx g j) (nmin g i)) as [Lt|Ge].
    + apply IH; auto. apply linv_skip with j.
      * apply linv_set_min; auto; try lia. exists j. split; [exact Hon|]. split; [reflexivity|apply reach_edge; exact Eij].
      * intros _. cbn [set_min nidx nmin]. rewrite upd_same. split; [exact Hv|lia].
    + apply IH; auto. apply linv_skip with j; [exact Lg|]. intros _. split; [exact Hv|lia].
Qed.

(** end of the loop without reaching the root of a component *)
Lemma finish_inner g0 gray cs0 i g : pre g0 gray cs0 i -> linv g0 gray cs0 i [] g ->
  nidx g i <> nmin g i -> post g0 gray cs0 i g.
Proof.
  intros (I0 & Hi & Hn & Hg) (cs & s & A & B & C & D & E & (y & Hy & Ey & Ry) & G & H & K & L) Hne.
  pose proof (i_sort _ _ _ A) as S. rewrite B in S. apply sorted_app_lt in S as (S1 & S2 & _).
  assert (Hyst : In y (stack g0)).
  { rewrite B in Hy. apply in_app_or in Hy as [Hy|[<-|Hy]]; [|lia|exact Hy]. specialize (S2 y Hy). lia. }
  assert (Hvi : vis g i).
  { apply (i_vis _ _ _ A). left. rewrite B. apply in_or_app. right. left. reflexivity. }
  exists cs, (s ++ [i]). split; [|split].
  - pose proof A as A'. destruct A. constructor; auto.
    + intros x Hx. apply i_gray0. right. exact Hx.
    + assert (Hyg : exists x, In x gray /\ nidx g x <= nidx g y /\ reach y x).
      { destruct (i_togray0 y Hy) as (x & [<-|Hx] & Lx & Rx); [lia|eauto]. }
      intros z Hz. destruct (i_togray0 z Hz) as (x & [<-|Hx] & Lx & Rx); [|eauto].
      destruct Hyg as (x & Hx & Lx' & Rx'). exists x. split; [exact Hx|]. split; [lia|].
      eapply reach_trans; [exact Rx|]. eapply reach_trans; eauto.
    + intros v w Hv Hng Ev. destruct (Nat.eq_dec v i) as [->|Hvi'].
      * destruct (H w Ev) as [[]|[Hw _]]. exact Hw.
      * apply (i_black0 v w Hv); auto. intros [->|Hin]; auto.
  - rewrite B, <- app_assoc. reflexivity.
  - split; [exact C|]. split; [exact D|]. split; [exact E|]. split.
    { intros x z Hx Hz Exz. apply in_app_or in Hx as [Hx|[<-|[]]]; [exact (G x z Hx Hz Exz)|].
      destruct (H z Exz) as [[]|[_ Hm]]. auto. }
    split; [exact K|]. split; [exact L|]. right. split; [apply in_or_app; right; left; reflexivity|].
    exists y. auto.
Qed.

Lemma NoDup_app_l {A} (l1 l2 : list A) : NoDup (l1 ++ l2) -> NoDup l1.
Proof.
  induction l1 as [|x l1 IH]; cbn; intros H; [constructor|]. inversion H; subst. constructor; auto.
  intros Hx. apply H2. apply in_or_app. auto.
Qed.
Lemma NoDup_app_r {A} (l1 l2 : list A) : NoDup (l1 ++ l2) -> NoDup l2.
Proof. induction l1 as [|x l1 IH]; cbn; intros H; auto. inversion H; auto. Qed.
Lemma NoDup_app_disj {A} (l1 l2 : list A) x : NoDup (l1 ++ l2) -> In x l1 -> In x l2 -> False.
Proof.
  induction l1 as [|y l1 IH]; cbn; intros N H1 H2; [exact H1|]. inversion N; subst.
  destruct H1 as [->|H1]; auto. apply H3. apply in_or_app. auto.
Qed.

(** end of the loop at the root of a component *)
Lemma finish_root g0 gray cs0 i g : pre g0 gray cs0 i -> linv g0 gray cs0 i [] g ->
  nidx g i = nmin g i -> exists g', pop len (stack g) i g = Some g' /\ post g0 gray cs0 i g'.
Proof.
  intros (I0 & Hi & Hn & Hg) (cs & s & A & B & C & D & E & F & G & H & K & (new & L)) Heq.
  pose proof (i_sort _ _ _ A) as S. rewrite B in S. apply sorted_app_lt in S as (S1 & S2 & S3).
  assert (Hvi : vis g i).
  { apply (i_vis _ _ _ A). left. rewrite B. apply in_or_app. right. left. reflexivity. }
  assert (Hnis : ~ In i s) by (intros Hin; specialize (S2 i Hin); lia).
  pose proof (i_dec _ _ _ A) as Dec.
  assert (Hlen : (length (order g) + length s + 2 <= 2 * len)%nat).
  { rewrite (i_order _ _ _ A).
    pose proof (encode_length cs (fun c Hc => proj1 (proj1 (proj2 Dec) c Hc))) as Le.
    pose proof (nodup_bound _ (i_nodup _ _ _ A) (i_lt _ _ _ A)) as Lb.
    rewrite app_length, B, app_length in Lb. cbn [length] in Lb. lia. }
  destruct (pop_ok s i (stack g0) Hnis g Hlen) as (g' & Ep & E1 & E2 & E3 & E4 & E5 & E6 & E7).
  rewrite B. exists g'. split; [exact Ep|].
  assert (Hnd : NoDup ((s ++ [i]) ++ stack g0 ++ concat cs)).
  { pose proof (i_nodup _ _ _ A) as N. rewrite B in N. rewrite <- !app_assoc in *. exact N. }
  (* reachability inside the component *)
  assert (Hfrom : forall y, In y (s ++ [i]) -> reach i y /\ reach y i).
  { intros y Hy.
    assert (Hyst : In y (stack g)).
    { rewrite B. apply in_app_or in Hy as [Hy|[<-|[]]]; apply in_or_app; [auto|right; left; reflexivity]. }
    assert (Hist : In i (stack g)) by (rewrite B; apply in_or_app; right; left; reflexivity).
    assert (Hle : nidx g i <= nidx g y).
    { apply in_app_or in Hy as [Hy|[<-|[]]]; [specialize (S2 y Hy); lia|lia]. }
    split; [exact (i_reach _ _ _ A i y Hist Hyst Hle)|].
    destruct (i_togray _ _ _ A y Hyst) as (x & [<-|Hx] & Lx & Rx); [exact Rx|].
    eapply reach_trans; [exact Rx|]. exact (Hg x Hx). }
  (* edges leaving the component *)
  assert (Hout : forall x y, In x (s ++ [i]) -> edge x y -> In y (s ++ [i]) \/ In y (concat cs)).
  { intros x y Hx Exy.
    assert (Hvy : vis g y /\ (In y (stack g0) -> nmin g i <= nidx g y)).
    { apply in_app_or in Hx as [Hx|[<-|[]]].
      - split; [|intros Hy; exact (G x y Hx Hy Exy)].
        apply (i_black _ _ _ A x y); auto.
        + apply (i_vis _ _ _ A). left. rewrite B. apply in_or_app. auto.
        + intros [<-|Hgx]; [contradiction|].
          (* gray nodes are below i on the stack *)
          assert (Hin0 : In x (stack g0)) by (apply (i_gray _ _ _ I0); exact Hgx).
          specialize (S1 x Hin0). specialize (S2 x Hx). lia.
      - destruct (H y Exy) as [[]|Hy]. exact Hy. }
    destruct Hvy as [Hvy Hm]. apply (i_vis _ _ _ A) in Hvy as [Hst|Hc]; [|auto].
    rewrite B in Hst. apply in_app_or in Hst as [Hst|[<-|Hst]].
    - left. apply in_or_app. auto.
    - left. apply in_or_app. right. left. reflexivity.
    - specialize (Hm Hst). specialize (S1 y Hst). lia. }
  assert (Hgs : forall x, In x gray -> In x (stack g0)) by (apply (i_gray _ _ _ I0)).
  exists (cs ++ [s ++ [i]]), []. split; [|split].
  - pose proof A as A'. destruct A. constructor.
    + rewrite E6, i_order0, encode_app. reflexivity.
    + rewrite E5. exact i_errs0.
    + intros v. rewrite E1, E3, concat_snoc, i_vis0, B. rewrite !in_app_iff. cbn [In]. tauto.
    + intros v. rewrite E3, concat_snoc. intros Hv. apply i_lt0. rewrite B.
      rewrite !in_app_iff in *. cbn [In] in *. tauto.
    + rewrite E3, concat_snoc. eapply Permutation_NoDup; [|exact Hnd].
      rewrite Permutation_app_comm, <- app_assoc. reflexivity.
    + intros v. rewrite E1, E3, E7. intros Hv.
      destruct (in_dec Nat.eq_dec v (s ++ [i])) as [Hin|Hin].
      * split; [discriminate|]. intros Hst. exfalso.
        apply (NoDup_app_disj _ _ v Hnd Hin). apply in_or_app. auto.
      * rewrite i_on0 by exact Hv. rewrite B. rewrite !in_app_iff in *. cbn [In] in *. tauto.
    + intros v. rewrite E1, E4. apply i_cnt1.
    + rewrite E4. exact i_cnt2.
    + rewrite E1, E3. exact S3.
    + intros x Hx. rewrite E3. auto.
    + intros y. rewrite E3, E1. intros Hy.
      destruct (i_togray0 y) as (x & [<-|Hx] & Lx & Rx).
      * rewrite B. apply in_or_app. right. right. exact Hy.
      * specialize (S1 y Hy). lia.
      * exists x. auto.
    + intros x y. rewrite E3, E1. intros Hx Hy. apply i_reach0; rewrite B; apply in_or_app; right; right; assumption.
    + intros v w. rewrite E1. intros Hv Hng Ev. destruct (Nat.eq_dec v i) as [->|Hvi'].
      * destruct (H w Ev) as [[]|[Hw _]]. exact Hw.
      * apply (i_black0 v w Hv); auto. intros [->|Hin]; auto.
    + apply dec_snoc; auto.
      * destruct s; discriminate.
      * clear - Hnd. eapply Permutation_NoDup with (l := (s ++ [i]) ++ concat cs); [reflexivity|].
        rewrite app_assoc in Hnd.
        assert (P : Permutation (((s ++ [i]) ++ stack g0) ++ concat cs) (stack g0 ++ (s ++ [i]) ++ concat cs)).
        { rewrite (Permutation_app_comm (s ++ [i]) (stack g0)), <- app_assoc. reflexivity. }
        apply (Permutation_NoDup P) in Hnd. exact (NoDup_app_r _ _ Hnd).
      * intros x y Hx Hy. eapply reach_trans; [apply (Hfrom x Hx)|apply (Hfrom y Hy)].
  - rewrite E3. reflexivity.
  - rewrite E1, E2. split.
    { destruct C. constructor; rewrite ?E1, ?E2, ?E4; auto. }
    split; [exact D|]. split; [exact E|]. split; [intros x y []|]. split; [exact K|].
    split; [exists (new ++ [s ++ [i]]); rewrite L, app_assoc; reflexivity|].
    left. split; [reflexivity|]. split; [symmetry; exact Heq|].
    exists cs, (s ++ [i]). split; [reflexivity|]. apply in_or_app. right. left. reflexivity.
Qed.

Lemma components_ok : forall fuel depth g gray cs i, pre g gray cs i -> (unv g <= fuel)%nat ->
  exists g', components len follows fuel depth g i = Some (true, g') /\ post g gray cs i g'.
Proof.
  induction fuel as [|f IH]; intros depth g gray cs i P Hf.
  { destruct P as (_ & Hi & Hn & _). pose proof (unv_pos g i Hi Hn). lia. }
  cbn [components]. destruct (enter_ok g gray cs i P) as (g1 & -> & Hu & L1).
  pose proof P as (I0 & Hi & Hn & Hg).
  assert (Hrec : forall g' gray' cs' j, pre g' gray' cs' j -> (unv g' <= f)%nat ->
    exists b g'', components len follows f (S depth) g' j = Some (b, g'') /\ post g' gray' cs' j g'').
  { intros g' gray' cs' j Pj Hu'. destruct (IH (S depth) g' gray' cs' j Pj Hu') as (g'' & E & Q). eauto. }
  assert (Hjs : forall j, In j (rev (seq 0 len)) -> (j < len)%nat).
  { intros j Hj. apply in_rev in Hj. apply in_seq in Hj. lia. }
  destruct (comp_loop_ok (components len follows f (S depth)) depth g gray cs i f Hi Hn Hg Hrec (rev (seq 0 len)) g1 Hjs L1 ltac:(lia))
    as (g2 & -> & L2).
  destruct (Z.eqb_spec (nidx g2 i) (nmin g2 i)) as [E|E]; cbn [negb].
  - destruct (finish_root g gray cs i g2 P L2 E) as (g3 & -> & Q). eauto.
  - exists g2. split; [reflexivity|]. apply finish_inner; auto.
Qed.

Lemma inv_nogray_stack g cs : inv g [] cs -> stack g = [].
Proof.
  intros I. destruct (stack g) as [|y l] eqn:E; [reflexivity|].
  destruct (i_togray _ _ _ I y) as (x & [] & _). rewrite E. left. reflexivity.
Qed.

Lemma unv_le g : (unv g <= len)%nat.
Proof.
  unfold unv. rewrite <- (seq_length len 0) at 2.
  induction (seq 0 len) as [|a l IH]; cbn; [lia|]. destruct (nidx g a <? 0); cbn; lia.
Qed.

Lemma init_inv m0 o0 : inv (graph_alloc m0 o0) [] [].
Proof.
  constructor; cbn; auto; try lia; try tauto; try (apply NoDup_nil); try (apply SSorted_nil);
    try (intros v; split; [lia|tauto]).
  - split; [constructor|]. split; [intros c []|]. intros pre c post x y E. destruct pre; discriminate.
Qed.

Lemma init_loop_ok is : forall g cs, inv g [] cs -> (forall i, In i is -> (i < len)%nat) ->
  exists g' cs', init_loop len follows is g = Some (true, g') /\ inv g' [] cs' /\ ext g g' /\
    forall i, In i is -> vis g' i.
Proof.
  induction is as [|i is IH]; intros g cs I Hlt; cbn [init_loop].
  { exists g, cs. split; [reflexivity|]. split; [exact I|]. split; [|intros i []].
    constructor; auto; try lia. }
  assert (Hi : (i < len)%nat) by (apply Hlt; left; reflexivity).
  assert (Hlt' : forall i, In i is -> (i < len)%nat) by (intros; apply Hlt; right; assumption).
  destruct (Z.leb_spec 0 (nidx g i)) as [V|V].
  - destruct (IH g cs I Hlt') as (g' & cs' & E & I' & X & Va). exists g', cs'.
    split; [exact E|]. split; [exact I'|]. split; [exact X|].
    intros j [->|Hj]; [exact (ext_vis _ _ _ X V)|auto].
  - destruct (components_ok (S len) 1 g [] cs i) as (g1 & E1 & Q).
    { split; [exact I|]. split; [exact Hi|]. split; [exact V|intros x []]. }
    { pose proof (unv_le g). lia. }
    rewrite E1. destruct Q as (cs1 & s & I1 & _ & X1 & Ei & _).
    destruct (IH g1 cs1 I1 Hlt') as (g' & cs' & E & I' & X & Va). exists g', cs'.
    split; [exact E|]. split; [exact I'|]. split; [exact (ext_trans _ _ _ X1 X)|].
    intros j [->|Hj]; [|auto]. apply (ext_vis _ _ _ X). rewrite Ei. apply (i_cnt0 _ _ _ I).
Qed.

Theorem graph_init_ok m0 o0 :
  exists g cs, graph_init len follows m0 o0 = Some (true, g) /\ order g = encode cs /\
    decomposition cs /\ forall i, In i (concat cs) <-> (i < len)%nat.
Proof.
  destruct (init_loop_ok (rev (seq 0 len)) (graph_alloc m0 o0) [] (init_inv m0 o0)) as (g & cs & E & I & X & V).
  { intros i Hi. apply in_rev, in_seq in Hi. lia. }
  exists g, cs. split; [exact E|]. split; [exact (i_order _ _ _ I)|]. split; [exact (i_dec _ _ _ I)|].
  pose proof (inv_nogray_stack _ _ I) as St. intros i. split.
  - intros Hi. apply (i_lt _ _ _ I). apply in_or_app. auto.
  - intros Hi. destruct (proj1 (i_vis _ _ _ I i)) as [H|H]; auto.
    + apply V. apply in_rev. rewrite rev_involutive. apply in_seq. lia.
    + rewrite St in H. destruct H.
Qed.

Theorem graph_component_ok m0 o0 node : (node < len)%nat ->
  exists g cs c, graph_component len follows m0 o0 node = Some (true, g) /\ order g = encode (cs ++ [c]) /\
    decomposition (cs ++ [c]) /\ In node c /\ forall i, In i (concat (cs ++ [c])) <-> reach node i.
Proof.
  intros Hnode. unfold graph_component.
  destruct (components_ok (S len) 1 (graph_alloc m0 o0) [] [] node) as (g & E & cs' & s & I & St & X & Ei & Em & _ & K & _ & R).
  { split; [apply init_inv|]. split; [exact Hnode|]. split; [reflexivity|intros x []]. }
  { pose proof (unv_le (graph_alloc m0 o0)). lia. }
  pose proof (inv_nogray_stack _ _ I) as St'. rewrite St' in St. symmetry in St. apply app_eq_nil in St as [-> _].
  destruct R as [(_ & _ & cs & c & -> & Hc)|([] & _)].
  exists g, cs, c. split; [exact E|]. split; [exact (i_order _ _ _ I)|]. split; [exact (i_dec _ _ _ I)|].
  split; [exact Hc|].
  assert (Hin : forall i, In i (concat (cs ++ [c])) <-> vis g i).
  { intros i. rewrite (i_vis _ _ _ I), St'. cbn [In]. tauto. }
  intros i. rewrite Hin. split.
  - intros V. apply K; [exact V|]. cbn. lia.
  - intros Ri. apply Hin. apply (reach_closed (fun v => In v (concat (cs ++ [c])))) with node; auto.
    + intros x y Hx Exy. exact (dec_closed _ x y (i_dec _ _ _ I) Hx Exy).
    + rewrite concat_snoc. apply in_or_app. auto.
Qed.
End Tarjan.

(** ** errors of the callback *)
(** errors at depth [d] or deeper only *)
Definition deep (d : nat) (g : graph) : Prop := forall e, In e (errs g) -> (d <= e)%nat.

Section Errors.
Variable len : nat.
Variable follows : nat -> nat -> option bool.

Lemma pop_errs i stk : forall g g', pop len stk i g = Some g' -> errs g' = errs g.
Proof.
  induction stk as [|j stk IH]; intros g g'; cbn [pop]; [discriminate|].
  destruct (length (order g) <? 2 * len)%nat; [|discriminate].
  destruct (j =? i)%nat.
  - match goal with |- context [if ?b then _ else _] => destruct b end; [|discriminate].
    intros E. injection E as <-. reflexivity.
  - intros E. apply IH in E. exact E.
Qed.

(** the errors added by a loop, and whether it reports one *)
Lemma comp_loop_errs rec depth i js : forall g b g',
  (forall g j b g', rec g j = Some (b, g') -> exists l, errs g' = l ++ errs g /\ Forall (fun e => (depth < e)%nat) l) ->
  comp_loop follows rec depth i js g = Some (b, g') ->
  exists l, errs g' = l ++ errs g /\
    (b = true /\ Forall (fun e => (depth < e)%nat) l \/ b = false /\ exists l', l = depth :: l' /\ Forall (fun e => (depth < e)%nat) l').
Proof.
  induction js as [|j js IH]; intros g b g' Hrec; cbn [comp_loop].
  { intros E. injection E as <- <-. exists []. auto. }
  destruct (j =? i)%nat; [apply IH; exact Hrec|].
  destruct ((0 <=? nidx g j) && (negb (non g j) || (nmin g i <? nidx g j))); [apply IH; exact Hrec|].
  destruct (follows i j) as [[|]|].
  - destruct (nidx g j <? 0).
    + destruct (rec g j) as [[b1 g1]|] eqn:Er; [|discriminate]. intros E.
      destruct (Hrec _ _ _ _ Er) as (l1 & E1 & F1).
      apply (IH _ _ _ Hrec) in E as (l & El & Hl).
      assert (Ee : errs g' = (l ++ l1) ++ errs g).
      { rewrite El. destruct (nmin g1 j <? nmin g1 i); cbn [set_min errs]; rewrite E1, app_assoc; reflexivity. }
      exists (l ++ l1). split; [exact Ee|]. destruct Hl as [[-> F]|[-> (l' & -> & F)]].
      * left. split; [reflexivity|]. apply Forall_app. auto.
      * right. split; [reflexivity|]. exists (l' ++ l1). split; [reflexivity|]. apply Forall_app. auto.
    + intros E. apply (IH _ _ _ Hrec) in E as (l & El & Hl). exists l. split; [|exact Hl].
      rewrite El. destruct (nidx g j <? nmin g i); reflexivity.
  - apply IH. exact Hrec.
  - intros E. injection E as <- <-. exists [depth]. split; [reflexivity|]. right. split; [reflexivity|].
    exists []. auto.
Qed.

Lemma components_errs : forall fuel depth g i b g',
  components len follows fuel depth g i = Some (b, g') ->
  exists l, errs g' = l ++ errs g /\
    (b = true /\ Forall (fun e => (depth < e)%nat) l \/ b = false /\ exists l', l = depth :: l' /\ Forall (fun e => (depth < e)%nat) l').
Proof.
  induction fuel as [|f IH]; intros depth g i b g'; cbn [components]; [discriminate|].
  unfold enter. destruct (length (stack g) <? len)%nat; [|discriminate].
  match goal with |- context [comp_loop _ _ _ _ _ ?x] => set (g1 := x) end.
  destruct (comp_loop _ _ _ _ _ g1) as [[b2 g2]|] eqn:El; [|discriminate].
  assert (Hrec : forall g j b g', components len follows f (S depth) g j = Some (b, g') ->
    exists l, errs g' = l ++ errs g /\ Forall (fun e => (depth < e)%nat) l).
  { intros g3 j b3 g4 E. apply IH in E as (l & E & Hl). exists l. split; [exact E|].
    assert (Hw : forall l, Forall (fun e => (S depth < e)%nat) l -> Forall (fun e => (depth < e)%nat) l).
    { intros l0. apply Forall_impl. intros; lia. }
    destruct Hl as [[_ F]|[_ (l' & -> & F)]]; auto. }
  apply (comp_loop_errs _ _ _ _ _ _ _ Hrec) in El as (l & Ee & Hl). cbn [g1 errs] in Ee.
  destruct Hl as [[-> F]|[-> F]].
  - destruct (negb (nidx g2 i =? nmin g2 i)).
    + intros E. injection E as <- <-. exists l. auto.
    + destruct (pop len (stack g2) i g2) as [g3|] eqn:Ep; [|discriminate].
      intros E. injection E as <- <-. rewrite (pop_errs _ _ _ _ Ep). exists l. auto.
  - intros E. injection E as <- <-. exists l. auto.
Qed.

Lemma init_loop_errs is : forall g b g', init_loop len follows is g = Some (b, g') ->
  exists l, errs g' = l ++ errs g /\
    (b = true /\ Forall (fun e => (1 < e)%nat) l \/ b = false /\ In 1%nat l).
Proof.
  induction is as [|i is IH]; intros g b g'; cbn [init_loop].
  { intros E. injection E as <- <-. exists []. auto. }
  destruct (0 <=? nidx g i); [apply IH|].
  destruct (components len follows (S len) 1 g i) as [[[|] g1]|] eqn:Ec; [| |discriminate].
  - apply components_errs in Ec as (l1 & E1 & [[_ F1]|[H _]]); [|discriminate].
    intros E. apply IH in E as (l & El & Hl). exists (l ++ l1). rewrite El, E1, app_assoc. split; [reflexivity|].
    destruct Hl as [[-> F]|[-> F]]; [left|right]; (split; [reflexivity|]).
    + apply Forall_app. auto.
    + apply in_or_app. auto.
  - intros E. injection E as <- <-. apply components_errs in Ec as (l1 & E1 & [[H _]|[_ (l' & -> & _)]]); [discriminate|].
    exists (1%nat :: l'). split; [exact E1|]. right. split; [reflexivity|left; reflexivity].
Qed.

(** an error reported to the outermost call is returned *)
Theorem graph_init_top_error m0 o0 b g : graph_init len follows m0 o0 = Some (b, g) ->
  (b = false <-> In 1%nat (errs g)).
Proof.
  intros E. apply init_loop_errs in E as (l & El & Hl). cbn [graph_alloc errs] in El. rewrite app_nil_r in El. subst l.
  destruct Hl as [[-> F]|[-> H]].
  - split; [discriminate|]. intros H. rewrite Forall_forall in F. specialize (F _ H). lia.
  - split; auto.
Qed.
End Errors.
