(** The optimum computed by isl_basic_set_solve_ilp. *)
From Coq Require Import ZArith List Bool Arith Lia.
From Verif Require Import SeqModel SeqSpec SeqProofs MatModel MatSpec MatTheory MatProofs BMapModel BMapSpec BMapSem BMapLists BMapGauss2 TabModel TabBase LpModel LpSpec LpMin LpSolve LpMap IlpModel IlpSpec.
Import ListNotations.
Open Scope Z_scope.

Lemma plain_acyclic b : plain b -> acyclic b.
Proof. intros (_ & E). exists (fun _ => O). intros k j Hk. unfold ndiv in Hk. rewrite E in Hk. cbn in Hk. lia. Qed.
Lemma plain_prog b f : plain b -> prog f b = f.
Proof. intros (_ & E). unfold prog, ndiv. rewrite E. apply app_nil_r. Qed.
Lemma plain_total b : plain b -> total b = nvar b.
Proof. intros (_ & E). unfold total, ndiv. rewrite E. cbn. lia. Qed.
Lemma plain_points b q : plain b -> (points b q <-> b_empty b = false /\ system (b_eq b) (b_ineq b) q).
Proof.
  intros (_ & E). unfold points, member, described, ndiv. rewrite E. cbn [length]. split.
  - intros (X & e & Le & Se). destruct e; [|discriminate]. rewrite app_nil_r in Se. auto.
  - intros (X & Se). split; [exact X|]. exists []. rewrite app_nil_r. auto.
Qed.
Lemma plain_lp fuel b max f denom exact o sol : plain b -> length f = (1 + nvar b)%nat -> 0 < denom -> solve_lp fuel b max f denom exact = Ok (o, sol) -> lp_spec (pts b) (nvar b) 0 f denom max exact o sol.
Proof.
  intros P Lf Dp E. pose proof (solve_lp_ok fuel b max f denom exact (proj1 P) (plain_acyclic b P) Lf Dp) as H. rewrite (plain_prog b f P), E in H. unfold ndiv in H. rewrite (proj2 P) in H. exact H.
Qed.
Lemma ipts_pts b q : ipts b q -> pts b q.
Proof. intros (A & B & C). split; [exact A|]. split; [lia|exact C]. Qed.

(** ** unit boxes *)
Fixpoint negs (l : list Z) : Z := match l with [] => 0 | c :: l => Z.min 0 c + negs l end.
Lemma unit_sum l : forall s, fold_left (fun s c => if 0 <=? c then s else s + c) l s = s + negs l.
Proof. induction l as [|c l IH]; intros s; cbn [fold_left negs]; [lia|]. rewrite IH. destruct (Z.leb_spec 0 c); lia. Qed.
Lemma unit_row_ok c l : unit_row (c :: l) = (c + negs l) :: l.
Proof. unfold unit_row. cbn [zupd tl hd]. rewrite unit_sum. reflexivity. Qed.
Lemma unit_plain b : plain b -> plain (unit_box b).
Proof.
  intros ((We & Wi & Wd) & E). unfold unit_box. destruct (b_eq b) as [|e l].
  - split; [|reflexivity]. split; [constructor|]. split; [|constructor]. unfold rows_of in *. cbn [set_ineq b_ineq]. unfold total, nvar, ndiv in *. rewrite E in Wi. cbn [b_param b_in b_out b_div set_ineq length] in *. rewrite Forall_map. eapply Forall_impl; [|exact Wi]. intros r Hr. unfold unit_row. rewrite zupd_length. exact Hr.
  - unfold set_to_empty. cbn [b_empty b_eq b_ineq andb]. split; [|reflexivity]. split; [|split; constructor]. constructor; [|constructor]. cbn [b_eq length]. rewrite repeat_length. unfold total, nvar, ndiv. cbn. lia.
Qed.
Lemma unit_nvar b : nvar (unit_box b) = nvar b.
Proof. unfold unit_box. destruct (b_eq b); reflexivity. Qed.
Lemma ceil_tail h : 0 < h -> forall l q, h * dot l (seq_cdiv_q q h) >= dot l q + h * negs l.
Proof.
  intros Hh. induction l as [|c l IH]; intros q; [cbn; lia|]. assert (N : forall l, negs l <= 0) by (clear; induction l; cbn; lia). destruct q as [|x q]; [cbn [seq_cdiv_q map dot]; specialize (N (c :: l)); nia|].
  cbn [seq_cdiv_q map dot negs]. specialize (IH q). unfold seq_cdiv_q in IH. set (D := dot l (map (fun x => cdiv_q x h) q)) in *.
  pose proof (cdiv_up x h Hh) as (C1 & C2). set (y := cdiv_q x h) in *. clearbody y D. assert (0 <= y * h - x < h) by lia. assert (h * (c * y) >= c * x + h * Z.min 0 c); [|lia].
  destruct (Z_le_gt_dec 0 c); [rewrite Z.min_l by lia; nia|rewrite Z.min_r by lia; nia].
Qed.
Lemma ceil_ok b q : plain b -> pts (unit_box b) q -> b_empty b = false -> ipts b (vec_ceil q).
Proof.
  intros P (Lq & Hq & Pq) Em. apply (plain_points _ _ (unit_plain b P)) in Pq. rewrite unit_nvar in Lq. destruct Pq as (Eu & _ & Si). unfold unit_box in *. destruct (b_eq b) as [|e l] eqn:Eq; [|discriminate]. cbn [set_ineq b_ineq] in Si.
  destruct q as [|h q]; [cbn in Lq; lia|]. cbn in Hq, Lq. split; [unfold vec_ceil, seq_cdiv_q; cbn [length tl]; rewrite map_length; lia|]. split; [reflexivity|]. apply (plain_points b _ P). split; [exact Em|]. rewrite Eq. split; [constructor|].
  rewrite Forall_map in Si. eapply Forall_impl; [|exact Si]. intros r Hr. unfold nonneg_on in *. destruct r as [|c r]; [cbn; lia|]. rewrite unit_row_ok in Hr. cbn [dot] in Hr. unfold vec_ceil. cbn [hd tl dot]. pose proof (ceil_tail h Hq r q) as H. nia.
Qed.

Section Ilp.
Variable sample : bmap -> res (list Z).
Hypothesis Hs : sampler sample.
Lemma initial_ok fuel b f s : plain b -> b_empty b = false -> length f = (1 + nvar b)%nat -> initial_solution sample fuel b f = Ok s -> match s with [] => forall q, ~ ipts b q | _ => ipts b s end.
Proof.
  intros P Em Lf. unfold initial_solution. assert (Sa : sample b = Ok s -> match s with [] => forall q, ~ ipts b q | _ => ipts b s end) by (intros E; specialize (Hs b P); rewrite E in Hs; destruct s; exact Hs).
  destruct (solve_lp fuel (unit_box b) false f 1 false) as [[[| |a d] sol]| | |] eqn:E; try exact Sa; try discriminate. intros [= <-].
  apply plain_lp in E; [|apply unit_plain; exact P|rewrite unit_nvar; exact Lf|lia]. destruct E as (a0 & d0 & _ & _ & Ls & Ps & _). rewrite unit_nvar in Ps, Ls. rewrite firstn_all2 in Ps by lia. apply (ceil_ok b _ P Ps Em).
Qed.
(** ** the search *)
Lemma bounds_plain b f l u : plain b -> length f = (1 + nvar b)%nat -> plain (add_bounds b f l u).
Proof.
  intros ((We & Wi & Wd) & E) Lf. split; [|exact E]. split; [exact We|]. split; [|exact Wd]. unfold rows_of in *. cbn [add_bounds set_ineq b_ineq]. change (total (add_bounds b f l u)) with (total b). apply Forall_app. split; [exact Wi|].
  assert (T : total b = nvar b) by (unfold total, ndiv; rewrite E; cbn; lia). repeat constructor; rewrite zupd_length; [|unfold seq_neg; rewrite map_length]; lia.
Qed.
Lemma zupd_hd_dot f x p : hd 0 p = 1 -> (1 <= length f)%nat -> dot (zupd f 0 x) p = dot f p - hd 0 f + x.
Proof. intros H L. destruct f as [|a f]; [cbn in L; lia|]. destruct p as [|y p]; [discriminate|]. cbn in H. subst y. cbn. ring. Qed.
Lemma bounds_ipts b f l u q : plain b -> length f = (1 + nvar b)%nat -> (ipts (add_bounds b f l u) q <-> ipts b q /\ l <= dot f q <= u).
Proof.
  intros P Lf. pose proof (bounds_plain b f l u P Lf) as P'. unfold ipts. change (nvar (add_bounds b f l u)) with (nvar b). rewrite (plain_points _ _ P), (plain_points _ _ P'). unfold system. cbn [add_bounds set_ineq b_empty b_eq b_ineq]. rewrite Forall_app.
  assert (H : hd 0 q = 1 -> (Forall (nonneg_on q) [zupd f 0 (hd 0 f - l); zupd (seq_neg f) 0 (- hd 0 f + u)] <-> l <= dot f q <= u)).
  { intros Hq. assert (L1 : (1 <= length f)%nat) by lia. assert (L2 : (1 <= length (seq_neg f))%nat) by (unfold seq_neg; rewrite map_length; exact L1). rewrite !Forall_cons_iff. unfold nonneg_on. rewrite !zupd_hd_dot by assumption. unfold seq_neg. rewrite dot_opp. replace (hd 0 (map Z.opp f)) with (- hd 0 f) by (destruct f; reflexivity).
    split; [intros (A & B & _); lia|intros A; split; [lia|]; split; [lia|constructor]]. }
  split.
  - intros (A & B & C & D & F & G). apply (H B) in G. auto 10.
  - intros ((A & B & C & D & F) & G). apply (H B) in G. auto 10.
Qed.
Lemma search_ok b f (P : plain b) (Lf : length f = (1 + nvar b)%nat) : forall fuel opt sol l divide r s, ipts b sol -> dot f sol = opt -> (forall q, ipts b q -> l <= dot f q) ->
  ilp_search sample fuel b f opt sol l (opt - 1) divide = Ok (r, s) -> ipts b s /\ dot f s = r /\ forall q, ipts b q -> r <= dot f q.
Proof.
  induction fuel as [|fuel IH]; intros opt sol l divide r s Is Eo Lo; cbn [ilp_search]; [discriminate|].
  destruct (Z.leb_spec l (opt - 1)) as [Le|Gt].
  2: { intros [= <- <-]. split; [exact Is|]. split; [exact Eo|]. intros q Iq. specialize (Lo q Iq). lia. }
  set (tmp := if negb divide then opt - 1 else fdiv_q (opt - 1 - l) 2 + l). intros E. pose proof (bounds_plain b f l tmp P Lf) as P'. pose proof (Hs _ P') as S0. destruct (sample (add_bounds b f l tmp)) as [v| | |]; cbn [bind] in E; try discriminate.
  destruct v as [|x v].
  - assert (No : forall q, ipts b q -> tmp < dot f q). { intros q Iq. specialize (Lo q Iq). destruct (Z_le_gt_dec (dot f q) tmp) as [H|]; [|lia]. exfalso. apply (S0 q). apply bounds_ipts; auto. }
    destruct divide; cbn [negb] in *.
    + apply (IH _ _ _ _ _ _ Is Eo) in E; [exact E|]. intros q Iq. specialize (No q Iq). lia.
    + injection E as <- <-. split; [exact Is|]. split; [exact Eo|]. intros q Iq. specialize (No q Iq). unfold tmp in No. lia.
  - rewrite inner_ok in E. apply (bounds_ipts b f l tmp _ P Lf) in S0. destruct S0 as (Iv & _). apply (IH _ _ _ _ _ _ Iv eq_refl Lo) in E. exact E.
Qed.
(** ** solve_ilp *)
Lemma round_lower (S : list Z -> Prop) f a0 d0 a q : minimum S f 1 a0 d0 -> rounded_up a0 d0 a -> S q -> hd 0 q = 1 -> a <= dot f q.
Proof. intros (Dp & Lo & _) (R1 & R2) Sq Hq. specialize (Lo q Sq). rewrite Hq in Lo. nia. Qed.
Lemma solve_ilp_ok fuel b f o s : plain b -> b_empty b = false -> length f = (1 + nvar b)%nat -> solve_ilp sample fuel b f = Ok (o, s) -> ilp_spec (ipts b) f false o s.
Proof.
  intros P Em Lf. unfold solve_ilp. destruct (solve_lp fuel b false f 1 false) as [[o1 sol]| | |] eqn:E1; cbn [bind]; try discriminate. apply (plain_lp fuel b false f 1 false o1 sol P Lf ltac:(lia)) in E1.
  destruct o1 as [| |a d]; cbn [lp_spec] in E1.
  - intros [= <- <-]. cbn. intros q Iq. apply (E1 q), ipts_pts. exact Iq.
  - destruct (initial_solution sample fuel b f) as [v| | |] eqn:E2; cbn [bind]; try discriminate. apply (initial_ok fuel b f v P Em Lf) in E2. destruct v as [|x v]; intros [= <- <-]; [exact E2|].
    cbn [ilp_spec]. apply (falls_below (ipts b) f (nvar b)); [intros q (A & B & _); split; [exact A|lia]|eauto|]. destruct E1 as (_ & r & Lr & Hr & Dr & Cl). exists r. split; [exact Lr|]. split; [exact Hr|]. split; [exact Dr|].
    intros p m Ip Hm. destruct (Cl p m (ipts_pts _ _ Ip) Hm) as (A & B & C). split; [exact A|]. split; [|exact C]. destruct Ip as (Lp & Hp & _). rewrite plus_hd by lia. lia.
  - destruct E1 as (a0 & d0 & Mn & (Ed & Rd) & Ls & Ps & At). rewrite firstn_all2 in Ps, At by lia. destruct (Z.eqb_spec (hd 0 sol) 1) as [H1|N1].
    + intros [= <- <-]. cbn [ilp_spec]. split; [exact Ed|]. destruct Ps as (Lp & _ & Pp). assert (Is : ipts b sol) by (split; [exact Lp|]; auto). split; [exact Is|].
      assert (Lo : forall q, ipts b q -> a <= dot f q) by (intros q Iq; apply (round_lower (pts b) f a0 d0 a q Mn Rd (ipts_pts _ _ Iq)); apply Iq).
      split; [|exact Lo]. specialize (Lo sol Is). rewrite H1 in At. destruct Mn as (Dp & _). destruct Rd as (R1 & R2). nia.
    + destruct (initial_solution sample fuel b f) as [v| | |] eqn:E2; cbn [bind]; try discriminate. apply (initial_ok fuel b f v P Em Lf) in E2. destruct v as [|x v]; [intros [= <- <-]; exact E2|].
      rewrite inner_ok. destruct (ilp_search sample fuel b f (dot f (x :: v)) (x :: v) a (dot f (x :: v) - 1) true) as [[r w]| | |] eqn:E3; cbn [bind]; try discriminate. intros [= <- <-].
      apply (search_ok b f P Lf) in E3; [|exact E2|reflexivity|intros q Iq; apply (round_lower (pts b) f a0 d0 a q Mn Rd (ipts_pts _ _ Iq)); apply Iq]. cbn [ilp_spec]. split; [reflexivity|]. exact E3.
Qed.
Lemma ilp_neg S f o s : ilp_spec S (map Z.opp f) false o s -> ilp_spec S f true (neg_lp o) s.
Proof.
  destruct o as [| |v d]; cbn [neg_lp ilp_spec]; [auto| |].
  - intros H B. destruct (H (- B)) as (p & Sp & X). exists p. split; [exact Sp|]. rewrite dot_opp in X. lia.
  - intros (A & B & C & D). split; [exact A|]. split; [exact B|]. rewrite dot_opp in C. split; [lia|]. intros q Sq. specialize (D q Sq). rewrite dot_opp in D. lia.
Qed.
(** ** isl_basic_set_solve_ilp *)
Variable remove_eq : bmap -> res (bmap * list (list Z)).
Hypothesis Hr : remover remove_eq.
Lemma adjoint nr nc T f q : is_mat nr nc T -> length f = nr -> length q = nc -> dot (vec_mat_product nc f T) q = dot f (mat_vec_product nr T q).
Proof.
  intros M Lf Lq. destruct (vec_mat_ok nr nc T f M Lf) as (L1 & E1). destruct (mat_vec_ok nr nc T q M Lq) as (L2 & E2). rewrite !dot_sumn by lia. rewrite L1, Lf.
  rewrite (sumn_ext nc _ (fun j => sumn nr (fun k => nth k f 0 * elt T k j * nth j q 0))) by (intros j Hj; rewrite E1 by exact Hj; symmetry; apply sumn_mul_r).
  rewrite sumn_swap. apply sumn_ext. intros k Hk. rewrite E2 by exact Hk. unfold apply. change (MatSpec.total nc) with (sumn nc). rewrite <- sumn_mul. apply sumn_ext. intros j Hj. ring.
Qed.
Theorem bset_solve_ilp_ok : forall fuel b max f o s, plain b -> length f = (1 + nvar b)%nat -> bset_solve_ilp sample remove_eq fuel b max f = Ok (o, s) -> ilp_spec (ipts b) f max o s.
Proof.
  induction fuel as [|fuel IH]; intros b max f o s P Lf; cbn [bset_solve_ilp]; [discriminate|]. destruct (negb (Nat.eqb (b_param b) 0)); [discriminate|].
  destruct (b_empty b) eqn:Em. { intros [= <- <-]. cbn. intros q (_ & _ & X & _). congruence. }
  destruct (b_eq b) as [|e l] eqn:Eq.
  - set (g := if max then seq_neg f else f). destruct (solve_ilp sample (S fuel) b g) as [[o1 s1]| | |] eqn:E1; cbn [bind]; try discriminate.
    apply (solve_ilp_ok (S fuel) b g) in E1; auto; [|unfold g; destruct max; [unfold seq_neg; rewrite map_length|]; exact Lf]. unfold g in E1. destruct max.
    + apply ilp_neg in E1. intros [= <- <-]. destruct o1; exact E1.
    + intros [= <- <-]. destruct o1; exact E1.
  - destruct (remove_eq b) as [[c T]| | |] eqn:Er; cbn [bind]; try discriminate. destruct (Hr b c T P Er) as (Pc & MT & Fw & Bw). rewrite (plain_total c Pc), (plain_total b P).
    destruct (bset_solve_ilp sample remove_eq fuel c max (vec_mat_product (1 + nvar c) f T)) as [[o1 s1]| | |] eqn:E1; cbn [bind]; try discriminate.
    apply IH in E1; [|exact Pc|apply (vec_mat_ok (1 + nvar b) (1 + nvar c) T f MT Lf)]. assert (Ad : forall q, ipts c q -> dot (vec_mat_product (1 + nvar c) f T) q = dot f (mat_vec_product (1 + nvar b) T q)) by (intros q (Lq & _); apply adjoint; assumption).
    destruct o1 as [| |v d]; intros [= <- <-]; cbn [ilp_spec] in *.
    + intros p Ip. destruct (Bw p Ip) as (q & Iq & _). apply (E1 q Iq).
    + assert (Hh : forall q, ipts c q -> hd 0 q = hd 0 (mat_vec_product (1 + nvar b) T q)) by (intros q Iq; destruct (Fw q Iq) as (_ & -> & _); apply Iq).
      destruct max; intros B; destruct (E1 B) as (q & Iq & X); exists (mat_vec_product (1 + nvar b) T q); (split; [apply Fw; exact Iq|]); rewrite <- (Ad q Iq), <- (Hh q Iq); exact X.
    + destruct E1 as (Ed & Is & Ev & Lo). split; [exact Ed|]. split; [apply Fw; exact Is|]. split; [rewrite <- Ad; assumption|]. intros p Ip. destruct (Bw p Ip) as (q & Iq & <-). specialize (Lo q Iq). rewrite (Ad q Iq) in Lo. exact Lo.
Qed.
End Ilp.
