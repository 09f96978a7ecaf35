(** Quasi-polynomials with integer divisions that do not refer to each other: sort_divs, reduce_divs, remove_redundant_divs and
    isl_qpolynomial_from_aff. *)
From Coq Require Import ZArith List Bool QArith Arith Lia ZifyBool Setoid Permutation.
From Verif Require Import SeqModel SeqSpec SeqProofs MatModel ValModel LocalModel LocalSpec LocalProofs BMapModel BMapLists SpaceModel PolyModel PolySpec PolyBase PolyOps PolyOps2 PolyThms PolyOps3 QpModel QpSpec QpProofs QpReduce QpReduce2 QpFlat.
From Verif Require RdivCoal SimpDrop.
Import ListNotations.
Open Scope Z_scope.

(** replacing the integer divisions by other ones; [r] renames the variables that occur *)
Lemma flat_renamed q M r p' n' : wf_qp q -> flat (q_d q) (q_div q) -> fdivs (q_d q) n' M -> ordered (q_d q + n') p' -> (forall x, (pval x p' == pval (renamed x r) (q_poly q))%Q) ->
  (forall u, (u < q_d q)%nat -> occurs u (q_poly q) -> nth u r 0%nat = u) ->
  (forall k, (k < q_n q)%nat -> occurs (q_d q + k) (q_poly q) -> exists t, (t < n')%nat /\ nth (q_d q + k)%nat r 0%nat = (q_d q + t)%nat /\ feq (q_d q) (nth t M []) (nth k (q_div q) [])) ->
  (n' <= q_n q)%nat -> keeps q (mkqp (q_sp q) M p').
Proof.
  intros (W & K & O) Fl FM Op Vp Hu Hk Hn. set (d := q_d q) in *. set (n := q_n q) in *. assert (D0 : divs d n (q_div q)) by (apply divs_wf; split; assumption). assert (F0 : fdivs d n (q_div q)) by (apply fdivs_ok; split; assumption).
  destruct (proj1 (fdivs_ok d n' M) FM) as (D1 & Fl1). pose proof (proj1 D1) as LM. assert (D1' := D1). rewrite <- LM in D1'. destruct (proj1 (divs_wf d M) D1') as (W1 & K1).
  split; [split; [exact W1|split; [exact K1|unfold q_d, q_n; cbn [q_poly q_div q_sp]; rewrite LM; exact Op]]|]. split; [reflexivity|]. split; [unfold q_n at 1; cbn [q_div]; lia|]. split; [intros _; exact Fl1|].
  intros v x (w & Sw & Fw & Ex). apply vals_sat in Sw; [|exact D0]. change (vals d n (q_div q) w) in Sw. pose proof Sw as (Lw & W0 & _). rewrite (fvals d n _ w F0 Lw W0) in Sw. fold d in Fw. rewrite Fw in Sw.
  assert (Lv : length v = (1 + d)%nat) by (rewrite <- Fw, firstn_length; lia). assert (V0 : nth 0 v 0 = 1) by (rewrite <- Fw, nth_first by lia; exact W0).
  destruct (extend_sat d M v W1 K1 Lv V0) as (S' & F'). set (w' := extend_loop M v) in *. exists w'. split; [exact S'|]. split; [exact F'|]. cbn [q_poly]. rewrite Vp, Ex.
  apply vals_sat in S'; [|exact D1']. rewrite LM in S'. pose proof S' as (Lw' & W0' & _). rewrite (fvals d n' _ w' FM Lw' W0') in S'. rewrite F' in S'.
  assert (B : forall u, occurs u (q_poly q) -> (u < d + n)%nat) by (intros u Hou; apply (occurs_below (q_poly q) (d + n) u O Hou)).
  apply occurs_values. intros u Ou. specialize (B u Ou). unfold renamed, wval. destruct (Nat.lt_ge_cases u d) as [Hl|Hl].
  - rewrite (Hu u Hl Ou). rewrite <- (nth_first w (1 + u) (1 + d)), <- (nth_first w' (1 + u) (1 + d)) by lia. rewrite Fw, F'. reflexivity.
  - replace u with (d + (u - d))%nat in Ou |- * by lia. destruct (Hk (u - d)%nat ltac:(lia) Ou) as (t & Ht & Et & Ft). rewrite Et. change (1 + (d + (u - d)))%nat with (1 + d + (u - d))%nat. change (1 + (d + t))%nat with (1 + d + t)%nat. rewrite Sw, S' by lia. rewrite (Ft v). reflexivity.
Qed.
Section S.
Variable qsort : (nat -> nat -> Z) -> list nat -> list nat.
Hypothesis SO : sorts qsort.
Lemma sort_divs_parts q : wf_qp q -> flat (q_d q) (q_div q) -> exists M' r p n', sort_divs qsort q = Ok (mkqp (q_sp q) M' p) /\ fdivs (q_d q) n' M' /\ (n' <= q_n q)%nat /\ ordered (q_d q + n') p /\
  (forall x, (pval x p == pval (renamed x r) (q_poly q))%Q) /\ (forall u, (u < q_d q)%nat -> nth u r 0%nat = u) /\
  (forall k, (k < q_n q)%nat -> exists t, (t < n')%nat /\ nth (q_d q + k)%nat r 0%nat = (q_d q + t)%nat /\ feq (q_d q) (nth t M' []) (nth k (q_div q) [])).
Proof.
  intros WF Fl. pose proof WF as (W & K & O). unfold sort_divs. destruct (Nat.leb_spec (q_n q) 1) as [H|H].
  { exists (q_div q), (seq 0 (q_d q + q_n q)), (q_poly q), (q_n q). split; [destruct q; reflexivity|]. split; [apply fdivs_ok; split; [apply divs_wf; split; assumption|exact Fl]|]. split; [lia|]. split; [exact O|]. split; [|split; [intros u Hu; rewrite seq_nth by lia; lia|intros k Hk; exists k; split; [exact Hk|]; split; [rewrite seq_nth by lia; lia|intros v; reflexivity]]].
    intros x. apply (pval_ext _ _ _ _ O). intros k Hk. unfold renamed. rewrite seq_nth by exact Hk. reflexivity. }
  cbv zeta. set (d := q_d q) in *. set (n := q_n q) in *.
  assert (F0 : fdivs d n (q_div q)) by (apply fdivs_ok; split; [apply divs_wf; split; assumption|exact Fl]). set (arr := qsort (q_cmp_row (q_div q)) (seq 0 n)). destruct (SO (q_cmp_row (q_div q)) (seq 0 n)) as (P & _). fold arr in P.
  assert (La : length arr = n) by (rewrite <- (Permutation_length P), seq_length; reflexivity). assert (ND : NoDup arr) by (eapply Permutation_NoDup; [exact P|apply seq_NoDup]).
  assert (Fa : Forall (fun a => (a < n)%nat) arr) by (apply Forall_forall; intros a Ha; apply (Permutation_in _ (Permutation_sym P)) in Ha; apply in_seq in Ha; lia).
  destruct (sort_move_ok n (q_div q) arr [] 0 (q_div q) (seq 0 n) (seq 0 n)) as (LN & EN); try reflexivity; try assumption; try (apply seq_length).
  { intros k Hk. rewrite !seq_nth by (rewrite ?seq_nth; lia). repeat split; lia. } { intros a Ha. rewrite !seq_nth by (rewrite ?seq_nth; lia). lia. } { intros k Hk. lia. }
  set (N := sort_move arr 0 (q_div q) (seq 0 n) (seq 0 n)) in *. cbn [app] in EN.
  assert (FN : fdivs d n N). { split; [exact LN|]. intros j Hj. rewrite EN by exact Hj. apply F0. rewrite Forall_forall in Fa. apply Fa. apply nth_In. lia. }
  destruct (sort_merge_ok d n N arr [] 0 0 N (seq 0 (d + n))) as (skip & I); [exact ND|exact Fa|exact La| |].
  { split; [reflexivity|]. split; [lia|]. split; [rewrite Nat.sub_0_r; exact FN|]. split; [lia|]. split; [lia|]. split; [intros k Hk v; rewrite Nat.sub_0_r; reflexivity|]. split; [intros k Hk; lia|]. split; [intros u Hu; apply seq_nth; lia|apply seq_length]. }
  destruct (sort_merge d arr 0 0 N (seq 0 (d + n))) as (M', r). cbn [fst snd app] in I. destruct I as (_ & _ & FM & Hs & _ & _ & Done & Id & Lr).
  assert (At : forall k, (k < n)%nat -> exists t, (t < n - skip)%nat /\ nth (d + k)%nat r 0%nat = (d + t)%nat /\ feq d (nth t M' []) (nth k (q_div q) [])).
  { intros k Hk. assert (Ik : List.In k arr) by (apply (Permutation_in _ P); apply in_seq; lia). apply (In_nth _ _ 0%nat) in Ik as (j & Hj & Ej). destruct (Done j ltac:(lia)) as (t & A & B & C). rewrite Ej in B. exists t. split; [exact A|]. split; [exact B|]. intros v. rewrite C, EN by lia. rewrite Ej. reflexivity. }
  destruct (reorder_ok r (d + (n - skip)) (q_poly q) (d + n) O ltac:(lia)) as (p & Ep & Op & Vp & _).
  { apply Forall_forall. intros x Hx. apply (In_nth _ _ 0%nat) in Hx as (j & Hj & <-). destruct (Nat.lt_ge_cases j d) as [Hl|Hl]; [rewrite Id by exact Hl; lia|]. destruct (At (j - d)%nat ltac:(lia)) as (t & A & B & _). replace (d + (j - d))%nat with j in B by lia. rewrite B. lia. }
  rewrite Ep. cbn [LocalModel.bind]. exists M', r, p, (n - skip)%nat. split; [reflexivity|]. split; [exact FM|]. split; [lia|]. auto.
Qed.
Lemma sort_divs_flat q : wf_qp q -> flat (q_d q) (q_div q) -> exists q', sort_divs qsort q = Ok q' /\ keeps q q'.
Proof.
  intros WF Fl. destruct (sort_divs_parts q WF Fl) as (M' & r & p & n' & E & FM & Hn & Op & Vp & Id & At). eexists. split; [exact E|]. apply (flat_renamed q M' r p n'); auto.
Qed.
Lemma reduce_divs_flat : forall fuel q, wf_qp q -> flat (q_d q) (q_div q) -> (q_n q < fuel)%nat -> exists q', reduce_divs qsort fuel q = Ok q' /\ keeps q q'.
Proof.
  induction fuel as [|f IH]; intros q W Fl Hf; [lia|]. cbn [reduce_divs]. cbv zeta. pose proof (reduce_part q W) as R. cbv zeta in R. destruct (reduce_loop _ _ _ _) as (M, mat). destruct R as (s & p & Es & Ep & K1). rewrite Es. cbn [LocalModel.bind]. rewrite Ep. cbn [LocalModel.bind].
  destruct (non_divs_ok (q_n q) 0 _ (proj1 K1)) as (q2 & E2 & K2). rewrite E2. cbn [LocalModel.bind]. assert (K12 := keeps_trans _ _ _ K1 K2). destruct K12 as (W2 & S2 & N2 & F2 & V2).
  destruct (sort_divs_flat q2 W2 (F2 Fl)) as (q3 & E3 & K3). rewrite E3. cbn [LocalModel.bind]. assert (K13 := keeps_trans _ _ _ (keeps_trans _ _ _ K1 K2) K3). destruct (Nat.ltb_spec (q_n q3) (q_n q)); [|exists q3; auto].
  destruct (IH q3 (proj1 K3)) as (q' & E' & K'); [apply K13; exact Fl|lia|]. exists q'. split; [exact E'|]. eapply keeps_trans; eassumption.
Qed.
(** ** remove_redundant_divs *)
Lemma mark_flat d M : flat d M -> forall rows active red, fst (mark_loop d M rows active red) = active.
Proof.
  intros Fl. induction rows as [|i rows IH]; intros active red; [reflexivity|]. cbn [mark_loop]. destruct (nth (d + i) active false); cbn [negb]; [|apply IH]. cbv zeta.
  assert (E : find (fun j => negb (nth (2 + d + j) (nth i M []) 0 =? 0)) (seq 0 i) = None). { destruct (find _ _) as [j|] eqn:E; [|reflexivity]. apply find_some in E as (_ & E). rewrite Fl in E by lia. discriminate E. }
  rewrite E. apply IH.
Qed.
Definition drop_inv (d n : nat) (active : list bool) (N : mat) (i skip : nat) (M : mat) (r : list nat) : Prop :=
  (i <= n)%nat /\ fdivs d (n - skip) M /\ (skip <= i)%nat /\
  (forall k, (i <= k < n)%nat -> feq d (nth (k - skip) M []) (nth k N [])) /\
  (forall k, (k < i)%nat -> nth (d + k) active false = true -> exists t, (t < i - skip)%nat /\ nth (d + k)%nat r 0%nat = (d + t)%nat /\ feq d (nth t M []) (nth k N [])) /\
  (forall u, (u < d)%nat -> nth u r 0%nat = u) /\ length r = (d + i)%nat /\ Forall (fun x => x < Nat.max 1 (d + (i - skip)))%nat r.
Lemma drop_inactive_ok d n active N : forall m i skip M r, (i + m = n)%nat -> drop_inv d n active N i skip M r ->
  exists skip', drop_inv d n active N n skip' (fst (drop_inactive d active (seq i m) skip M r)) (snd (drop_inactive d active (seq i m) skip M r)).
Proof.
  induction m as [|m IH]; intros i skip M r Hm I; [cbn [seq drop_inactive fst snd]; replace n with i in * by lia; exists skip; exact I|].
  cbn [seq drop_inactive]. destruct I as (Hin & (LM & HM) & Hs & Rest & Done & Id & Lr & Bd).
  assert (App : forall x k, (k < d + i)%nat -> nth k (r ++ [x]) 0%nat = nth k r 0%nat) by (intros x k Hk; apply app_nth1; lia).
  destruct (nth (d + i) active false) eqn:Ea; cbn [negb].
  - apply IH; [lia|]. split; [lia|]. split; [split; assumption|]. split; [lia|]. split; [intros k Hk; apply Rest; lia|]. split; [|split; [intros u Hu; rewrite App by lia; apply Id; exact Hu|split; [rewrite app_length; cbn; lia|]]].
    + intros k Hk Ak. destruct (Nat.eq_dec k i) as [->|]; [exists (i - skip)%nat; split; [lia|]; split; [rewrite app_nth2 by lia; rewrite Lr, Nat.sub_diag; cbn; lia|]; apply Rest; lia|].
      destruct (Done k ltac:(lia) Ak) as (t & A & B & C). exists t. split; [lia|]. split; [rewrite App by lia; exact B|exact C].
    + apply Forall_app. split; [eapply Forall_impl; [|exact Bd]; cbv beta; intros x Hx; lia|constructor; [lia|constructor]].
  - set (t0 := (i - skip)%nat). assert (H0 : (t0 < n - skip)%nat) by lia. set (M1 := drop_col (drop_row M t0) (2 + d + t0)).
    assert (LM1 : length M1 = (n - S skip)%nat) by (unfold M1, drop_col, drop_row; rewrite map_length, ldrop_length by lia; lia).
    assert (N1 : forall t, (t < n - S skip)%nat -> frow d (n - S skip) (nth t M1 []) /\ feq d (nth t M1 []) (nth (if Nat.ltb t t0 then t else S t) M [])).
    { intros t Ht. unfold M1, drop_col. rewrite nth_map_nil by (unfold drop_row; rewrite ldrop_length by lia; lia). unfold drop_row. rewrite nth_ldrop by lia. replace (if Nat.ltb t t0 then nth t M [] else nth (S t) M []) with (nth (if Nat.ltb t t0 then t else S t) M []) by (destruct (Nat.ltb t t0); reflexivity).
      set (u := if Nat.ltb t t0 then t else S t). assert (Hu : (u < n - skip)%nat) by (unfold u; destruct (Nat.ltb t t0); lia). destruct (drop_frow d (n - skip) t0 _ (HM u Hu) H0) as (F2 & E2). replace (n - skip - 1)%nat with (n - S skip)%nat in F2 by lia. split; assumption. }
    apply IH; [lia|]. split; [lia|]. split; [split; [exact LM1|intros j Hj; apply N1; exact Hj]|]. split; [lia|]. split; [|split; [|split; [intros u Hu; rewrite App by lia; apply Id; exact Hu|split; [rewrite app_length; cbn; lia|]]]].
    + intros k Hk v. destruct (N1 (k - S skip)%nat ltac:(lia)) as (_ & E1). rewrite E1. destruct (Nat.ltb_spec (k - S skip) t0); [lia|]. replace (S (k - S skip)) with (k - skip)%nat by lia. apply Rest. lia.
    + intros k Hk Ak. destruct (Nat.eq_dec k i) as [->|]; [congruence|]. destruct (Done k ltac:(lia) Ak) as (t & A & B & C). exists t. split; [lia|]. split; [rewrite App by lia; exact B|]. intros v. destruct (N1 t ltac:(lia)) as (_ & E1). rewrite E1. destruct (Nat.ltb_spec t t0); [apply C|lia].
    + apply Forall_app. split; [eapply Forall_impl; [|exact Bd]; cbv beta; intros x Hx; lia|constructor; [lia|constructor]].
Qed.
Lemma remove_redundant_flat q : wf_qp q -> flat (q_d q) (q_div q) -> exists q', remove_redundant_divs q = Ok q' /\ keeps q q'.
Proof.
  intros WF Fl. pose proof WF as (W & K & O). unfold remove_redundant_divs. cbv zeta. set (d := q_d q) in *. set (n := q_n q) in *. destruct (Nat.eqb_spec n 0) as [H|H]; [exists q; split; [reflexivity|apply keeps_refl; exact WF]|].
  destruct (active_ok (d + n) (q_poly q) (repeat false (d + n)) ltac:(rewrite repeat_length; lia)) as (LA & HA). set (act := poly_set_active (q_poly q) (d + n) (repeat false (d + n))) in *.
  pose proof (mark_flat d (q_div q) Fl (rev (seq 0 n)) act false) as EA. destruct (mark_loop d (q_div q) (rev (seq 0 n)) act false) as (act', red). cbn [fst] in EA. subst act'. destruct red; cbn [negb]; [|exists q; split; [reflexivity|apply keeps_refl; exact WF]].
  assert (F0 : fdivs d n (q_div q)) by (apply fdivs_ok; split; [apply divs_wf; split; assumption|exact Fl]).
  destruct (drop_inactive_ok d n act (q_div q) n 0 0 (q_div q) (seq 0 d) eq_refl) as (skip & I).
  { split; [lia|]. split; [rewrite Nat.sub_0_r; exact F0|]. split; [lia|]. split; [intros k Hk v; rewrite Nat.sub_0_r; reflexivity|]. split; [intros k Hk; lia|]. split; [intros u Hu; apply seq_nth; exact Hu|]. split; [rewrite seq_length; lia|]. apply Forall_forall. intros x Hx. apply in_seq in Hx. lia. }
  destruct (drop_inactive d act (seq 0 n) 0 (q_div q) (seq 0 d)) as (M', r). cbn [fst snd] in I. destruct I as (_ & FM & Hs & _ & Done & Id & Lr & Bd).
  assert (Oc : forall u, occurs u (q_poly q) -> nth u act false = true /\ (u < d + n)%nat). { intros u Ou. pose proof (occurs_below (q_poly q) (d + n) u O Ou) as Hu. split; [|exact Hu]. apply HA. right. split; assumption. }
  assert (At : forall k, (k < n)%nat -> occurs (d + k) (q_poly q) -> exists t, (t < n - skip)%nat /\ nth (d + k)%nat r 0%nat = (d + t)%nat /\ feq d (nth t M' []) (nth k (q_div q) [])) by (intros k Hk Ok; apply Done; [exact Hk|apply Oc; exact Ok]).
  assert (Hex : exists p, reorder (q_poly q) r = Ok p /\ ordered (d + (n - skip)) p /\ forall x, (pval x p == pval (renamed x r) (q_poly q))%Q).
  { destruct (Nat.eq_dec (d + (n - skip)) 0) as [Z0|Nz].
    - destruct (q_poly q) as [c0 c1|u l] eqn:Eq; [exists (Cst c0 c1); split; [reflexivity|]; split; [exact O|reflexivity]|]. exfalso. assert (Ou : occurs u (Rec u l)) by (left; reflexivity). destruct (Oc u Ou) as (_ & Hu). replace u with (d + (u - d))%nat in Ou at 1 by lia. destruct (At (u - d)%nat ltac:(lia) Ou) as (t & Ht & _). lia.
    - destruct (reorder_ok r (d + (n - skip)) (q_poly q) (d + n) O ltac:(lia)) as (p & A & B & C & _); [eapply Forall_impl; [|exact Bd]; cbv beta; intros x Hx; lia|exists p; auto]. }
  destruct Hex as (p & Ep & Op & Vp). rewrite Ep. cbn [LocalModel.bind]. eexists. split; [reflexivity|]. apply (flat_renamed q M' r p (n - skip)); try assumption; [intros u Hu _; apply Id; exact Hu|fold n; lia].
Qed.
(** ** isl_qpolynomial_from_aff *)
Lemma from_aff_flat s M a : wf_divs (dim_all s) M -> known M -> flat (dim_all s) M -> length a = (2 + dim_all s + length M)%nat -> 0 < nth 0 a 0 ->
  exists q, qp_from_aff qsort s M a = Ok q /\ wf_qp q /\ q_sp q = s /\ forall v r, aff_value (dim_all s) M a v r -> qvalue q v r.
Proof.
  intros W K Fl La Pa. unfold qp_from_aff. set (d := dim_all s) in *. destruct (affine_poly (skipn 1 a) (nth 0 a 0) (d + length M) Pa ltac:(rewrite skipn_length; lia)) as (p & Ep & Op & _ & Vp). rewrite Ep. cbn [LocalModel.bind].
  set (q0 := mkqp s M p). assert (W0 : wf_qp q0) by (split; [exact W|]; split; [exact K|exact Op]). destruct (reduce_divs_flat (1 + length M) q0 W0 Fl ltac:(unfold q_n; cbn; lia)) as (q1 & E1 & K1). rewrite E1. cbn [LocalModel.bind].
  destruct (remove_redundant_flat q1 (proj1 K1)) as (q2 & E2 & K2); [apply K1; exact Fl|]. exists q2. split; [exact E2|]. destruct (keeps_trans _ _ _ K1 K2) as (W2 & S2 & _ & _ & V2). split; [exact W2|]. split; [exact S2|]. intros v r (w & Sw & Fw & Er). apply V2. exists w. split; [exact Sw|]. split; [exact Fw|]. cbn [q_poly q0].
  pose proof Sw as (Lw & Ew & _). specialize (Vp w Ew ltac:(intros ->; cbn in Lw; lia)). rewrite <- Vp in Er. apply Qmult_inj_l in Er; [exact Er|]. intros E. unfold Qeq, inject_Z in E. cbn in E. lia.
Qed.
End S.
