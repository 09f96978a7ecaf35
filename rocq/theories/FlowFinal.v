(** Memory based dependences, the order of the sources, and the final result. *)
From Coq Require Import ZArith List Bool Arith Lia Classical_Prop Permutation Sorted.
From Verif Require Import MatModel SortModel SortSpec SortProofs FlowModel FlowSpec FlowBase FlowMust FlowMay FlowProofs.
Import ListNotations.
Open Scope Z_scope.

(** executed earlier, in terms of the level *)
Lemma level_bound : forall p q, (p <> [] -> q <> [] -> apart p q \/ p = q -> Z.to_nat (level p q / 2) < length p /\ Z.to_nat (level p q / 2) < length q)%nat.
Proof.
  induction p as [|b p IH]; intros [|c q] Hp Hq Ha; try congruence. cbn [level]. destruct (Z.eqb_spec b c) as [->|N]; [|destruct (b <? c); cbn; lia]. destruct p as [|b' p]; [cbn; lia|].
  assert (Ha' : apart (b' :: p) q \/ b' :: p = q) by (destruct Ha as [Ha|[= Ha]]; [left; apply (apart_cons c (b' :: p) c q Ha eq_refl)|right; exact Ha]).
  assert (Nq : q <> []) by (intros ->; destruct Ha' as [Ha'|Ha']; [apply (apart_nil _ Ha')|discriminate]). specialize (IH q ltac:(discriminate) Nq Ha'). pose proof (level_nonneg (b' :: p) q) as L0. set (L := level (b' :: p) q) in *.
  replace (2 + L) with (L + 1 * 2) by lia. rewrite Z.div_add by lia. rewrite Z2Nat.inj_add by (try apply Z.div_pos; lia). change (Z.to_nat 1) with 1%nat. cbn [length] in *. lia.
Qed.
Definition lexfirst (n : nat) (eqb : bool) (x y : vec) : Prop :=
  (exists pos, (pos < n)%nat /\ firstn pos x = firstn pos y /\ nth pos x 0 < nth pos y 0) \/ eqb = true /\ firstn n x = firstn n y.
Lemma lexfirst_S n b v x u y : lexfirst (S n) b (v :: x) (u :: y) <-> v < u \/ v = u /\ lexfirst n b x y.
Proof.
  unfold lexfirst. split.
  - intros [(p & H1 & H2 & H3)|(H1 & H2)].
    + destruct p as [|p]; [left; exact H3|]. cbn in H2, H3. injection H2 as -> H2. right. split; [reflexivity|]. left. exists p. split; [lia|auto].
    + cbn in H2. injection H2 as -> H2. right. auto.
  - intros [H|(-> & [(p & H1 & H2 & H3)|(H1 & H2)])].
    + left. exists 0%nat. split; [lia|auto].
    + left. exists (S p). split; [lia|]. cbn. rewrite H2. auto.
    + right. cbn. rewrite H2. auto.
Qed.
Lemma lex_earlier : forall p q x y, apart p q \/ p = q -> length p = S (length x) -> q <> [] -> (length q <= S (length y))%nat ->
  (lexfirst (Z.to_nat (level p q / 2)) (Z.odd (level p q)) x y <-> earlier (time p x) (time q y)).
Proof.
  induction p as [|b p IH]; intros q x y Ha Hx Hq Hy; [discriminate|]. destruct q as [|c q]; [congruence|]. cbn [level].
  destruct (Z.eqb_spec b c) as [->|N].
  - destruct p as [|b' p].
    + assert (q = []) as -> by (destruct Ha as [Ha|[= Ha]]; [apply apart_cons in Ha; [destruct (apart_nil_l _ Ha)|reflexivity]|congruence]).
      cbn. unfold lexfirst. split; [intros [(i & H & _)|(H & _)]; [lia|discriminate]|intros H; destruct (earlier_irr _ H)].
    + assert (Ha' : apart (b' :: p) q \/ b' :: p = q) by (destruct Ha as [Ha|[= Ha]]; [left; apply (apart_cons c (b' :: p) c q Ha eq_refl)|right; exact Ha]).
      assert (Nq : q <> []) by (intros ->; destruct Ha' as [Ha'|Ha']; [apply (apart_nil _ Ha')|discriminate]).
      destruct x as [|v x]; [discriminate|]. destruct y as [|u y]; [cbn in Hy; destruct q; [congruence|cbn in Hy; lia]|].
      rewrite !time_cons by (auto; discriminate). specialize (IH q x y Ha'). cbn [length] in Hx, Hy. pose proof (level_nonneg (b' :: p) q) as L0. set (L := level (b' :: p) q) in *.
      replace (Z.to_nat ((2 + L) / 2)) with (S (Z.to_nat (L / 2))) by (replace (2 + L) with (L + 1 * 2) by lia; rewrite Z.div_add by lia; rewrite Z2Nat.inj_add by (try apply Z.div_pos; lia); change (Z.to_nat 1) with 1%nat; lia).
      replace (Z.odd (2 + L)) with (Z.odd L) by (rewrite Z.add_comm, Z.odd_add_even; [reflexivity|exists 1; reflexivity]).
      rewrite lexfirst_S, IH by (auto; cbn [length]; lia). split.
      * intros [H|(-> & H)]; [apply earlier_1, H|apply earlier_cons2; auto].
      * intros (i & H). destruct i as [|[|i]]; [apply lt_at_0 in H; lia|apply lt_at_1 in H; tauto|]. apply lt_at_cons2 in H. right. split; [tauto|]. exists i. tauto.
  - assert (T1 : exists t, time (b :: p) x = b :: t) by (destruct p; [exists []; reflexivity|]; destruct x; eexists; reflexivity). assert (T2 : exists t, time (c :: q) y = c :: t) by (destruct q; [exists []; reflexivity|]; destruct y; eexists; reflexivity).
    destruct T1 as (t1 & ->), T2 as (t2 & ->). assert (E : earlier (b :: t1) (c :: t2) <-> b < c).
    { split; [|apply earlier_0]. intros ([|i] & H); [apply lt_at_0 in H; exact H|]. destruct H as (_ & _ & H & _). cbn in H. congruence. }
    rewrite E. unfold lexfirst. destruct (Z.ltb_spec b c) as [H|H]; cbn.
    + split; [auto|]. intros _. right. auto.
    + split; [intros [(i & Q & _)|(Q & _)]; [lia|discriminate]|lia].
Qed.

Section Flow.
Context {D : Type}.
Variable lb : D -> D -> Z.
Variable pos : D -> list Z.
Variable elem : nat.
Variable sink : @lmap D.
Section Mem.
Variable may : list (@lmap D).
Hypothesis Ok_ : problem_ok pos lb elem sink [] may.
Let sk := sk elem sink.
Definition mcand (i : nat) (v k : vec) : Prop := acc sk (nth i may sk) v k /\ earlier (tm pos (nth i may sk) v) (tm pos sk k).
Lemma mem_sources_ok : forall r i d dep, (i + r = length may)%nat ->
  (forall k, d k <-> dom sk k /\ forall i' v, (i' < i)%nat -> ~ mcand i' v k) -> (forall i' v k, dep i' v k <-> (i' < i)%nat /\ mcand i' v k) ->
  exists d' dep', mem_sources lb sk may r i d dep = Ok (d', dep') /\
  (forall k, d' k <-> dom sk k /\ forall i' v, (i' < length may)%nat -> ~ mcand i' v k) /\ (forall i' v k, dep' i' v k <-> (i' < length may)%nat /\ mcand i' v k).
Proof.
  induction r as [|r IH]; intros i d dep Hr Hd Hp; cbn [mem_sources]; [exists d, dep; replace (length may) with i by lia; auto|].
  assert (Hi : (i < length may)%nat) by lia. unfold src. rewrite (lb_pos lb pos (p_call _ _ _ _ _ _ Ok_)), (lb_level lb pos (p_call _ _ _ _ _ _ Ok_)). set (a := nth i may sk) in *.
  pose proof (H_Yo lb pos elem sink [] may Ok_ i Hi) as (P1 & P2). fold sk in P1, P2. fold a in P1, P2. destruct (H_Sp lb pos elem sink [] may Ok_) as (S1 & S2). fold sk in S1, S2.
  assert (Ap : apart (pos (l_data a)) (pos (l_data sk)) \/ pos (l_data a) = pos (l_data sk)) by apply (p_call _ _ _ _ _ _ Ok_).
  assert (B : (Z.to_nat (level (pos (l_data a)) (pos (l_data sk)) / 2) <= l_dim a /\ Z.to_nat (level (pos (l_data a)) (pos (l_data sk)) / 2) <= l_dim sk)%nat).
  { destruct (level_bound (pos (l_data a)) (pos (l_data sk))) as (B1 & B2); auto; [intros E; rewrite E in P1; discriminate|]. split; lia. }
  unfold lex_lte_first. rewrite (proj2 (Nat.leb_le _ _) (proj1 B)), (proj2 (Nat.leb_le _ _) (proj2 B)). cbn [andb bind].
  set (n := Z.to_nat _). set (b := Z.odd _). set (dd := intersect _ _).
  assert (Hdd : forall v k, dd v k <-> mcand i v k).
  { intros v k. unfold dd, intersect, apply_range, reverse, mcand, acc. fold a. split.
    - intros ((e & E1 & E2) & H). split; [exists e; auto|]. apply (lex_earlier (pos (l_data a)) (pos (l_data sk)) v k); auto; [rewrite (P2 _ _ E1); exact P1|rewrite (H_Sd lb pos elem sink [] may Ok_ k e E2); exact S1].
    - intros ((e & E1 & E2) & H). split; [exists e; auto|]. apply (lex_earlier (pos (l_data a)) (pos (l_data sk)) v k); auto; [rewrite (P2 _ _ E2); exact P1|rewrite (H_Sd lb pos elem sink [] may Ok_ k e E1); exact S1]. }
  apply IH; [lia| |].
  - intros k. unfold set_subtract, range. rewrite Hd. split.
    + intros ((H1 & H2) & H3). split; [exact H1|]. intros i' v Hi' Hc. destruct (Nat.eq_dec i' i) as [->|N]; [apply H3; exists v; apply Hdd, Hc|apply (H2 i' v); [lia|exact Hc]].
    + intros (H1 & H2). split; [split; [exact H1|intros i' v Hi'; apply H2; lia]|]. intros (v & Hv). apply Hdd in Hv. apply (H2 i v); [lia|exact Hv].
  - intros i' v k. unfold upd. destruct (Nat.eqb_spec i' i) as [->|N].
    + unfold union. rewrite Hdd, Hp. split; [intros [(H & _)|H]; [lia|split; [lia|exact H]]|intros (_ & H); right; exact H].
    + rewrite Hp. split; intros (H1 & H2); (split; [lia|exact H2]).
Qed.
Lemma mem_core : exists f, compute_mem_based_dependences lb sk may = Ok f /\ core_spec pos sink [] may f.
Proof.
  unfold compute_mem_based_dependences. destruct (mem_sources_ok (length may) 0 (domain (l_map sk)) (fun _ => empty_rel) eq_refl) as (d & dep & -> & Hd & Hp).
  { intros k. split; [intros H; split; [exact H|lia]|intros (H & _); exact H]. }
  { intros i v k. split; [intros []|lia]. }
  cbn [bind]. eexists. split; [reflexivity|].
  assert (MC : forall i v s e, length s = l_dim sink -> ((i < length may)%nat /\ mcand i v (s ++ e) <-> l_map sink s e /\ candidate pos sink may i v s e)).
  { intros i v s e Hs. unfold mcand, candidate, before. unfold sk. rewrite (acc_sk elem sink _ v s e Hs), (tm_sk lb pos elem sink [] may Ok_ s e Hs). split; intros H.
    - assert (Hi : (i < length may)%nat) by tauto. rewrite <- (nth_indep may (FlowProofs.sk elem sink) sink Hi). unfold tm in H. unfold moment at 1. tauto.
    - assert (Hi : (i < length may)%nat) by tauto. rewrite <- (nth_indep may (FlowProofs.sk elem sink) sink Hi) in H. unfold moment at 1 in H. unfold tm. tauto. }
  assert (NC : forall j w s e, ~ candidate pos sink [] j w s e) by (intros j w s e (H & _); cbn in H; lia).
  constructor; cbn [f_must f_maym f_may f_must_no f_may_no].
  - intros j w s e Hs. split; [intros []|]. intros (_ & (H & _) & _). destruct (NC _ _ _ _ H).
  - intros j w s e Hs. split; [intros []|]. intros (_ & (H & _) & _). destruct (NC _ _ _ _ H).
  - intros i v s e Hs. rewrite Hp, MC by exact Hs. unfold may_dep. split; [intros (H1 & H2); split; [exact H1|]; split; [exact H2|]; intros j w (H & _); destruct (NC _ _ _ _ H)|tauto].
  - intros s e Hs. rewrite Hd. unfold sk. rewrite dom_sk by exact Hs. unfold must_no. split.
    + intros (H1 & H2). split; [exact H1|]. split; [intros (j & w & H); destruct (NC _ _ _ _ H)|]. intros (i & v & H). destruct (proj2 (MC i v s e Hs) (conj H1 H)) as (A & B). exact (H2 i v A B).
    + intros (H1 & _ & H2). split; [exact H1|]. intros i v Hi Hc. apply H2. exists i, v. apply (MC i v s e Hs). auto.
  - intros s e Hs. unfold set_subtract. rewrite Hd. change (domain (l_map sk) (s ++ e)) with (dom sk (s ++ e)). unfold sk at 1 2. rewrite dom_sk by exact Hs. unfold may_no. split.
    + intros (H1 & H2). split; [exact H1|]. split; [intros (j & w & H); destruct (NC _ _ _ _ H)|]. destruct (classic (exists i v, candidate pos sink may i v s e)) as [Y|N]; [exact Y|]. exfalso. apply H2. split; [exact H1|]. intros i v Hi Hc. apply N. exists i, v. apply (MC i v s e Hs). auto.
    + intros (H1 & _ & i & v & H). split; [exact H1|]. intros (_ & H2). destruct (proj2 (MC i v s e Hs) (conj H1 H)) as (A & B). exact (H2 i v A B).
Qed.
End Mem.

(** the order of the must-sources *)
Hypothesis Cb : callback_ok pos lb.
Lemma level_odd : forall p q, Z.odd (level p q) = true <-> exists i, lt_at i p q.
Proof.
  induction p as [|b p IH]; intros [|c q]; cbn [level].
  - split; [discriminate|]. intros (i & H & _). cbn in H. lia.
  - split; [discriminate|]. intros (i & H & _). cbn in H. lia.
  - split; [discriminate|]. intros (i & _ & H & _). cbn in H. lia.
  - destruct (Z.eqb_spec b c) as [->|N].
    + assert (E : (exists i, lt_at i (c :: p) (c :: q)) <-> exists i, lt_at i p q).
      { split.
        - intros ([|i] & H1 & H2 & H3 & H4); [cbn in H4; lia|]. cbn in H1, H2, H3, H4. injection H3 as H3. exists i. split; [lia|]. split; [lia|]. auto.
        - intros (i & H1 & H2 & H3 & H4). exists (S i). unfold lt_at. cbn. split; [lia|]. split; [lia|]. rewrite H3. auto. }
      rewrite E. destruct p as [|b' p].
      * split; [discriminate|]. intros (i & H & _). cbn in H. lia.
      * rewrite <- IH. rewrite Z.add_comm, Z.odd_add_even; [tauto|exists 1; reflexivity].
    + destruct (Z.ltb_spec b c) as [H|H].
      * split; [|reflexivity]. intros _. exists 0%nat. apply lt_at_0, H.
      * split; [discriminate|]. intros ([|i] & H1 & H2 & H3 & H4); [cbn in H4; lia|]. cbn in H3. congruence.
Qed.
Lemma apart_lt p q : apart p q -> (exists i, lt_at i p q) \/ exists i, lt_at i q p.
Proof. intros (i & H1 & H2 & H3 & H4). destruct (Z.lt_trichotomy (nth i p 0) (nth i q 0)) as [H|[H|H]]; [left; exists i; repeat split; auto|contradiction|right; exists i; repeat split; auto]. Qed.
Variable hash : rel -> Z.
Lemma cmp_cases a b : let p := pos (l_data a) in let q := pos (l_data b) in
  ((exists i, lt_at i p q) /\ access_sort_cmp lb hash a b = -1) \/ ((exists i, lt_at i q p) /\ access_sort_cmp lb hash a b = 1) \/
  (p = q /\ access_sort_cmp lb hash a b = if hash (l_map b) <? hash (l_map a) then 1 else if hash (l_map a) <? hash (l_map b) then -1 else 0).
Proof.
  intros p q. unfold access_sort_cmp. rewrite !(lb_pos lb pos Cb), !(lb_level lb pos Cb). fold p q. destruct (Z.odd (level p q)) eqn:E1; [left; split; [apply level_odd, E1|reflexivity]|].
  destruct (Z.odd (level q p)) eqn:E2; [right; left; split; [apply level_odd, E2|reflexivity]|]. right. right. split; [|reflexivity].
  destruct (proj2 (Cb (l_data a) (l_data b))) as [H|H]; [|exact H]. exfalso. destruct (apart_lt _ _ H) as [X|X]; apply level_odd in X; fold p q in X; congruence.
Qed.
Lemma cmp_order : total_preorder (access_sort_cmp lb hash).
Proof.
  assert (Irr : forall p, ~ exists i, lt_at i p p) by (intros p (i & H); exact (lt_at_irr i p H)).
  assert (Asy : forall p q, (exists i, lt_at i p q) -> (exists i, lt_at i q p) -> False) by (intros p q (i & H1) (j & H2); exact (lt_at_irr _ _ (lt_at_trans _ _ _ _ _ H1 H2))).
  constructor.
  - intros x y. destruct (cmp_cases x y) as [(H1 & ->)|[(H1 & ->)|(H1 & ->)]]; destruct (cmp_cases y x) as [(H2 & ->)|[(H2 & ->)|(H2 & ->)]]; try reflexivity; try (exfalso; eapply Asy; eassumption); try (exfalso; rewrite H1 in H2; exact (Irr _ H2)); try (exfalso; rewrite H2 in H1; exact (Irr _ H1)).
    destruct (Z.ltb_spec (hash (l_map y)) (hash (l_map x))), (Z.ltb_spec (hash (l_map x)) (hash (l_map y))); cbn; lia.
  - intros x y z. destruct (cmp_cases x y) as [(H1 & ->)|[(H1 & ->)|(H1 & ->)]]; [|intros; lia|]; (destruct (cmp_cases y z) as [(H2 & ->)|[(H2 & ->)|(H2 & ->)]]; [|intros; lia|]); intros A B.
    + destruct H1 as (i & H1), H2 as (j & H2). pose proof (lt_at_trans _ _ _ _ _ H1 H2) as H3. destruct (cmp_cases x z) as [(H & ->)|[(H & ->)|(H & ->)]]; [lia|exfalso; refine (Asy _ _ _ H); eexists; exact H3|]. exfalso. rewrite H in H3. exact (lt_at_irr _ _ H3).
    + rewrite H2 in H1. destruct (cmp_cases x z) as [(H & ->)|[(H & ->)|(H & ->)]]; [lia|exfalso; apply (Asy _ _ H1 H)|]. exfalso. rewrite H in H1. exact (Irr _ H1).
    + rewrite <- H1 in H2. destruct (cmp_cases x z) as [(H & ->)|[(H & ->)|(H & ->)]]; [lia|exfalso; apply (Asy _ _ H2 H)|]. exfalso. rewrite H in H2. exact (Irr _ H2).
    + rewrite H2 in H1. destruct (cmp_cases x z) as [(H & ->)|[(H & ->)|(H & ->)]]; [lia|exfalso; rewrite H1 in H; exact (Irr _ H)|].
      destruct (Z.ltb_spec (hash (l_map y)) (hash (l_map x))), (Z.ltb_spec (hash (l_map z)) (hash (l_map y))), (Z.ltb_spec (hash (l_map z)) (hash (l_map x))), (Z.ltb_spec (hash (l_map x)) (hash (l_map z))); lia.
Qed.
Lemma existsb_none {A} (f : A -> bool) l : (forall x, f x = false) -> existsb f l = false.
Proof. intros H. induction l as [|x l IH]; [reflexivity|]. cbn. rewrite H. exact IH. Qed.
Lemma sort_ok alloc acc : exists m, Permutation (a_must acc) m /\ StronglySorted (fun a b => access_sort_cmp lb hash a b <= 0) m /\
  (sort_sources lb hash alloc acc = Ok (mki (a_sink acc) (a_elem acc) (a_max acc) m (a_may acc)) \/ alloc = false /\ sort_sources lb hash alloc acc = Null).
Proof.
  unfold sort_sources. destruct (Nat.leb_spec (length (a_must acc)) 1) as [L|L].
  - exists (a_must acc). split; [reflexivity|]. split; [|left; destruct acc; reflexivity]. destruct (a_must acc) as [|x [|y r]]; cbn in L; try lia; repeat constructor.
  - destruct (isl_sort_ok (access_sort_cmp lb hash) cmp_order true (a_must acc)) as [(m & E & (P1 & P2) & _)|(E & _)]; [|discriminate]. exists m. split; [exact P1|]. split; [exact P2|].
    destruct alloc.
    + left. rewrite E. rewrite existsb_none; [reflexivity|]. intros x. apply existsb_none. intros y. apply (lb_pos lb pos Cb).
    + right. split; [reflexivity|]. unfold isl_sort. rewrite (proj2 (Nat.ltb_ge _ _)) by lia. reflexivity.
Qed.
End Flow.

Lemma perm_problem {D} pos lb elem (sink : @lmap D) must must' may : Permutation must must' -> problem_ok pos lb elem sink must may -> problem_ok pos lb elem sink must' may.
Proof.
  intros P [A1 A2 A3 A4 A5]. constructor; auto.
  - intros a Ha. apply A3. apply Permutation_sym in P. apply (Permutation_in a P Ha).
  - intros i j Hi Hj N. pose proof (proj1 (Permutation_nth must must' sink) P) as (L & f & Fb & Fi & Fe). cbv zeta in Fb, Fi. rewrite L in Hi, Hj. rewrite (Fe i Hi), (Fe j Hj). apply A5; [apply Fb, Hi|apply Fb, Hj|]. intros E. apply N. apply Fi; auto.
Qed.
(** every run of compute_flow *)
Lemma flow_ok {D} lb pe spe (pos : D -> list Z) hash alloc (acc : info) : sound_empty pe -> sound_set_empty spe ->
  problem_ok pos lb (a_elem acc) (a_sink acc) (a_must acc) (a_may acc) ->
  (exists must f, compute_flow lb pe spe hash alloc acc = Ok (must, f) /\ Permutation (a_must acc) must /\ StronglySorted (fun a b => access_sort_cmp lb hash a b <= 0) must /\
    (forall j w s, f_must f j w s <-> exists e, must_dep pos (a_sink acc) must (a_may acc) j w s e) /\
    (forall j w s, f_maym f j w s <-> exists e, maym_dep pos (a_sink acc) must (a_may acc) j w s e) /\
    (forall i v s, f_may f i v s <-> exists e, may_dep pos (a_sink acc) must (a_may acc) i v s e) /\
    (forall s e, get_no_source (l_dim (a_sink acc)) f true s e <-> must_no pos (a_sink acc) must (a_may acc) s e) /\
    (forall s e, get_no_source (l_dim (a_sink acc)) f false s e <-> may_no pos (a_sink acc) must (a_may acc) s e)) \/
  (alloc = false /\ compute_flow lb pe spe hash alloc acc = Null).
Proof.
  intros Pe Spe Ok_. unfold compute_flow, compute_flow_core. fold (sk (a_elem acc) (a_sink acc)). set (sink := a_sink acc) in *. set (elem := a_elem acc) in *.
  assert (Fin : forall must f, problem_ok pos lb elem sink must (a_may acc) -> core_spec pos sink must (a_may acc) f ->
    let f' := mkf (fun j => range_factor_domain (l_dim sink) (f_must f j)) (fun j => range_factor_domain (l_dim sink) (f_maym f j)) (fun j => range_factor_domain (l_dim sink) (f_may f j)) (f_must_no f) (f_may_no f) in
    (forall j w s, f_must f' j w s <-> exists e, must_dep pos sink must (a_may acc) j w s e) /\
    (forall j w s, f_maym f' j w s <-> exists e, maym_dep pos sink must (a_may acc) j w s e) /\
    (forall i v s, f_may f' i v s <-> exists e, may_dep pos sink must (a_may acc) i v s e) /\
    (forall s e, get_no_source (l_dim sink) f' true s e <-> must_no pos sink must (a_may acc) s e) /\
    (forall s e, get_no_source (l_dim sink) f' false s e <-> may_no pos sink must (a_may acc) s e)).
  { intros must f Okm [C1 C2 C3 C4 C5] f'. assert (Ls : forall s e, l_map sink s e -> length s = l_dim sink) by (intros s e H; apply (proj2 (p_sink _ _ _ _ _ _ Okm) s e H)).
    unfold f'; cbn [f_must f_maym f_may f_must_no f_may_no]; unfold range_factor_domain, get_no_source; cbn [f_must_no f_may_no].
    split; [|split; [|split; [|split]]].
    - intros j w s. split; [intros (Hs & e & H); exists e; apply C1; auto|]. intros (e & H). assert (Hs : length s = l_dim sink) by (apply (Ls s e), H). split; [exact Hs|]. exists e. apply C1; auto.
    - intros j w s. split; [intros (Hs & e & H); exists e; apply C2; auto|]. intros (e & H). assert (Hs : length s = l_dim sink) by (apply (Ls s e), H). split; [exact Hs|]. exists e. apply C2; auto.
    - intros j w s. split; [intros (Hs & e & H); exists e; apply C3; auto|]. intros (e & H). assert (Hs : length s = l_dim sink) by (apply (Ls s e), H). split; [exact Hs|]. exists e. apply C3; auto.
    - intros s e. split; [intros (Hs & H); apply C4; auto|]. intros H. assert (Hs : length s = l_dim sink) by (apply (Ls s e), H). split; [exact Hs|apply C4; auto].
    - intros s e. split; [intros (Hs & H); apply C5; auto|]. intros H. assert (Hs : length s = l_dim sink) by (apply (Ls s e), H). split; [exact Hs|apply C5; auto]. }
  destruct (a_must acc) as [|m0 ms] eqn:Em.
  - cbn [length Nat.eqb]. destruct (mem_core lb pos elem sink (a_may acc) Ok_) as (f & -> & C). cbn [bind]. left. eexists [], _. split; [reflexivity|]. split; [reflexivity|]. split; [constructor|]. apply (Fin [] f Ok_ C).
  - cbn [length Nat.eqb]. rewrite <- Em in *. destruct (sort_ok lb pos (p_call _ _ _ _ _ _ Ok_) hash alloc acc) as (m & Pm & Sm & [->|(-> & ->)]); [|right; auto]. cbn [bind a_sink a_elem a_must a_may].
    pose proof (perm_problem pos lb elem sink _ _ _ Pm Ok_) as Okm. destruct (val_core lb pe Pe spe Spe pos elem sink m (a_may acc) Okm) as (f & -> & C). cbn [bind]. left. eexists m, _. split; [reflexivity|]. split; [exact Pm|]. split; [exact Sm|]. apply (Fin m f Okm C).
Qed.
(** a finite set has last elements *)
Lemma lexlt_total : forall x y, length x = length y -> x = y \/ lexlt x y \/ lexlt y x.
Proof.
  induction x as [|a x IH]; intros [|b y] H; try discriminate; [auto|]. cbn [lexlt]. destruct (Z.lt_trichotomy a b) as [Q|[->|Q]]; [auto| |auto]. destruct (IH y) as [->|[E|E]]; auto.
Qed.
Lemma lexlt_trans : forall x y z, lexlt x y -> lexlt y z -> lexlt x z.
Proof.
  induction x as [|a x IH]; intros [|b y] [|c z]; cbn [lexlt]; try tauto. intros [H1|(-> & H1)] [H2|(-> & H2)]; [left; lia|left; exact H1|left; exact H2|]. right. split; [reflexivity|]. exact (IH y z H1 H2).
Qed.
Lemma has_last_finite (A : vset) (n : nat) (L : list vec) : (forall w, A w -> List.In w L /\ length w = n) -> has_last A.
Proof.
  intros HA P (w0 & A0 & P0).
  assert (G : forall M, (exists w, List.In w M /\ A w /\ P w) -> exists w, A w /\ P w /\ forall w', List.In w' M -> A w' -> P w' -> w' = w \/ lexlt w' w).
  { induction M as [|m M IH]; intros (w & Hi & Aw & Pw); [destruct Hi|]. destruct (classic (exists w, List.In w M /\ A w /\ P w)) as [Y|N].
    - destruct (IH Y) as (w1 & A1 & P1 & B1). destruct (classic (A m /\ P m)) as [(Am & Pm)|Nm].
      + destruct (lexlt_total w1 m) as [->|[E|E]]; [rewrite (proj2 (HA _ A1)), (proj2 (HA _ Am)); reflexivity| | |].
        * exists m. split; [exact Am|]. split; [exact Pm|]. intros w' [->|H'] A' P'; [auto|apply B1; auto].
        * exists m. split; [exact Am|]. split; [exact Pm|]. intros w' [->|H'] A' P'; [auto|]. right. destruct (B1 w' H' A' P') as [->|E']; [exact E|exact (lexlt_trans _ _ _ E' E)].
        * exists w1. split; [exact A1|]. split; [exact P1|]. intros w' [<-|H'] A' P'; [right; exact E|apply B1; auto].
      + exists w1. split; [exact A1|]. split; [exact P1|]. intros w' [<-|H'] A' P'; [destruct (Nm (conj A' P'))|apply B1; auto].
    - destruct Hi as [->|Hi]; [|exfalso; apply N; exists w; auto]. exists w. split; [exact Aw|]. split; [exact Pw|]. intros w' [->|H'] A' P'; [auto|]. exfalso. apply N. exists w'. auto. }
  destruct (G L) as (w & A1 & P1 & B1); [exists w0; split; [apply HA, A0|auto]|]. exists w. split; [exact A1|]. split; [exact P1|]. intros w' A' P'. apply B1; auto. apply HA, A'.
Qed.
Lemma add_all_ok {D} : forall (l : list (@lmap D * bool)) acc, Z.of_nat (length (a_must acc) + length (a_may acc) + length l) <= a_max acc ->
  exists acc', add_all (Ok acc) l = Ok acc' /\ a_sink acc' = a_sink acc /\ a_elem acc' = a_elem acc /\
  a_must acc' = a_must acc ++ map fst (filter snd l) /\ Permutation (a_may acc') (a_may acc ++ map fst (filter (fun x => negb (snd x)) l)).
Proof.
  induction l as [|(a, must) l IH]; intros acc H; cbn [add_all filter map snd fst]; [exists acc; rewrite !app_nil_r; auto|].
  cbn [length] in H. cbn [bind]. unfold add_source at 1. rewrite (proj2 (Z.ltb_lt _ _)) by lia. destruct must; cbn [negb].
  - set (m1 := match a_may acc with [] => [] | m :: may => may ++ [m] end). assert (Pm : Permutation m1 (a_may acc)) by (unfold m1; destruct (a_may acc); [reflexivity|symmetry; apply Permutation_cons_append]).
    destruct (IH (mki (a_sink acc) (a_elem acc) (a_max acc) (a_must acc ++ [a]) m1)) as (acc' & E & A1 & A2 & A3 & A4); [cbn [a_must a_may a_max]; rewrite app_length, (Permutation_length Pm); cbn [length]; lia|].
    exists acc'. split; [exact E|]. cbn [a_sink a_elem a_must a_may] in *. split; [exact A1|]. split; [exact A2|]. split; [rewrite A3, <- app_assoc; reflexivity|]. rewrite A4. apply Permutation_app_tail, Pm.
  - destruct (IH (mki (a_sink acc) (a_elem acc) (a_max acc) (a_must acc) (a_may acc ++ [a]))) as (acc' & E & A1 & A2 & A3 & A4); [cbn [a_must a_may a_max]; rewrite app_length; cbn [length]; lia|].
    exists acc'. split; [exact E|]. cbn [a_sink a_elem a_must a_may] in *. split; [exact A1|]. split; [exact A2|]. split; [exact A3|]. rewrite A4, <- app_assoc. reflexivity.
Qed.
Lemma alloc_add {D} (sink : @lmap D) elem max l acc : access_info_alloc sink elem max = Ok acc -> Z.of_nat (length l) <= max ->
  exists acc', add_all (Ok acc) l = Ok acc' /\ a_sink acc' = sink /\ a_elem acc' = elem /\
  a_must acc' = map fst (filter snd l) /\ Permutation (a_may acc') (map fst (filter (fun x => negb (snd x)) l)).
Proof.
  unfold access_info_alloc. destruct (0 <=? max); [|discriminate]. intros [= <-] H. destruct (add_all_ok l (mki sink elem max [] [])) as (acc' & E & A); [cbn; lia|]. exists acc'. split; [exact E|]. exact A.
Qed.
(** the order in which the must-sources are reported *)
Lemma cmp_textual {D} lb (pos : D -> list Z) hash a b : callback_ok pos lb -> access_sort_cmp lb hash a b <= 0 -> ~ exists i, lt_at i (pos (l_data b)) (pos (l_data a)).
Proof.
  intros Cb H (i & X). destruct (cmp_cases lb pos Cb hash a b) as [((j & H1) & _)|[(_ & E)|(E & _)]]; [exact (lt_at_irr _ _ (lt_at_trans _ _ _ _ _ H1 X))|lia|rewrite E in X; exact (lt_at_irr _ _ X)].
Qed.
Lemma sorted_nth {A} (R : A -> A -> Prop) (d : A) : forall l, StronglySorted R l -> forall i j, (i < j < length l)%nat -> R (nth i l d) (nth j l d).
Proof.
  induction l as [|x l IH]; intros H i j Hij; [cbn in Hij; lia|]. inversion H as [|? ? H1 H2]; subst. destruct j as [|j]; [lia|]. cbn [length] in Hij. destruct i as [|i]; cbn [nth].
  - rewrite Forall_forall in H2. apply H2, nth_In. lia.
  - apply IH; [exact H1|lia].
Qed.
Lemma flow_textual {D} lb (pos : D -> list Z) hash elem sink must may : problem_ok pos lb elem sink must may -> StronglySorted (fun a b => access_sort_cmp lb hash a b <= 0) must -> textual pos sink must.
Proof.
  intros Ok_ Hs i j Hij. pose proof (cmp_textual lb pos hash _ _ (p_call _ _ _ _ _ _ Ok_) (sorted_nth _ sink must Hs i j Hij)) as N.
  destruct (apart_lt _ _ (p_apart _ _ _ _ _ _ Ok_ i j ltac:(lia) ltac:(lia) ltac:(lia))) as [(k & H)|X]; [exists k; exact H|contradiction].
Qed.
(** the dependences that compute_flow reports *)
Theorem compute_flow_ok {D} lb pe spe (pos : D -> list Z) hash alloc (acc : info) : sound_empty pe -> sound_set_empty spe ->
  problem_ok pos lb (a_elem acc) (a_sink acc) (a_must acc) (a_may acc) ->
  (exists must f, compute_flow lb pe spe hash alloc acc = Ok (must, f) /\ Permutation (a_must acc) must /\ textual pos (a_sink acc) must /\
    (forall j w s, f_must f j w s <-> exists e, must_dep pos (a_sink acc) must (a_may acc) j w s e) /\
    (forall j w s, f_maym f j w s <-> exists e, maym_dep pos (a_sink acc) must (a_may acc) j w s e) /\
    (forall i v s, f_may f i v s <-> exists e, may_dep pos (a_sink acc) must (a_may acc) i v s e) /\
    (forall s e, get_no_source (l_dim (a_sink acc)) f true s e <-> must_no pos (a_sink acc) must (a_may acc) s e) /\
    (forall s e, get_no_source (l_dim (a_sink acc)) f false s e <-> may_no pos (a_sink acc) must (a_may acc) s e)) \/
  (alloc = false /\ compute_flow lb pe spe hash alloc acc = Null).
Proof.
  intros Pe Spe Ok_. destruct (flow_ok lb pe spe pos hash alloc acc Pe Spe Ok_) as [(must & f & E & P & S1 & R)|R]; [left|right; exact R]. exists must, f. split; [exact E|]. split; [exact P|]. split; [|exact R].
  exact (flow_textual lb pos hash _ _ _ _ (perm_problem pos lb _ _ _ _ _ P Ok_) S1).
Qed.
(** each sink element has at most one last must-source *)
Lemma last_unique {D} (pos : D -> list Z) sink must j w j' w' s e : last pos sink must j w s e -> last pos sink must j' w' s e -> j = j' /\ w = w'.
Proof.
  intros (A1 & A2) (B1 & B2). destruct (A2 j' w' B1) as [(-> & ->)|E]; [auto|]. destruct (B2 j w A1) as [(-> & ->)|E']; [auto|]. exfalso. exact (earlier_asym _ _ E E').
Qed.
(** every element that a sink reads has a last must-source or none at all *)
Lemma sink_cases {D} lb (pos : D -> list Z) elem sink must may s e : problem_ok pos lb elem sink must may -> l_map sink s e ->
  (exists j w, must_dep pos sink must may j w s e \/ maym_dep pos sink must may j w s e) \/ must_no pos sink must may s e \/ may_no pos sink must may s e.
Proof.
  intros Ok_ Hm. destruct (classic (exists j w, candidate pos sink must j w s e)) as [Y|N].
  - left. destruct (last_ex lb pos elem sink must may Ok_ s e (proj1 (proj2 (p_sink _ _ _ _ _ _ Ok_) s e Hm)) Hm Y) as (j & w & H). exists j, w. unfold must_dep, maym_dep. destruct (classic (exists i v, candidate pos sink may i v s e /\ follows pos sink must may i v j w)); tauto.
  - right. unfold must_no, may_no. destruct (classic (exists i v, candidate pos sink may i v s e)); tauto.
Qed.
