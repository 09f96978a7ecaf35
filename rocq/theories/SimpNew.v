(** normalize_divs: the integer divisions that are introduced. *)
From Coq Require Import ZArith List Bool Lia Arith Permutation.
From Verif Require Import SeqModel SeqSpec SeqProofs MatModel MatTheory MatProofs BMapModel BMapSpec BMapSem BMapLists BMapNorm BMapGauss BMapGauss2 BMapOrder BDupModel BDupProofs BElimModel BElimSpec BElimSort BElimCols BElimProofs BElimFM BElimVars SimpModel SimpSpec SimpBase SimpDrop SimpDivs SimpShift SimpDups SimpIneq SimpGauss SimpNorm.
Import ListNotations.
Open Scope Z_scope.

(** ** one more integer division, with an equality *)
Definition with_div (b : bmap) (d q : list Z) : bmap := set_eq (alloc_div b d) (b_eq (alloc_div b d) ++ [q]).
Lemma dot_pad0 r v t : length r = length v -> dot (r ++ [0]) (v ++ [t]) = dot r v.
Proof. intros L. rewrite dot_app2 by exact L. cbn. ring. Qed.
Lemma nth_pad0 (r : list Z) i : nth i (r ++ [0]) 0 = nth i r 0.
Proof. destruct (Nat.lt_ge_cases i (length r)) as [J|J]; [apply app_nth1; exact J|]. rewrite app_nth2 by exact J. rewrite (nth_overflow r) by exact J. destruct (i - length r)%nat as [|[|k]]; reflexivity. Qed.
Lemma hd_pad0 (r : list Z) : hd 0 (r ++ [0]) = hd 0 r. Proof. destruct r; reflexivity. Qed.
Lemma nth_map_pad0 (l : list (list Z)) k : (k < length l)%nat -> nth k (map (fun r => r ++ [0]) l) [] = nth k l [] ++ [0].
Proof. intros H. rewrite (nth_indep _ [] ([] ++ [0])) by (rewrite map_length; exact H). apply (map_nth (fun r => r ++ [0])). Qed.
Lemma with_div_ok b m e q : wf b -> length e = (2 + BMapModel.total b)%nat -> length q = (2 + BMapModel.total b)%nat -> nth (1 + BMapModel.total b) e 0 = 0 -> let b' := with_div b (m :: e) q in
  same_space b b' /\ b_empty b' = b_empty b /\ wf b' /\ ndiv b' = S (ndiv b) /\ (ordered b -> ordered b') /\ (denoms (b_div b) -> 0 <= m -> denoms (b_div b')) /\
  (forall v t, length v = (1 + BMapModel.total b)%nat -> (system (b_eq b') (b_ineq b') (v ++ [t]) <-> system (b_eq b) (b_ineq b) v /\ dot q (v ++ [t]) = 0)) /\
  (forall v t, length v = (1 + BMapModel.total b)%nat -> divisions (b_div b) (1 + nvar b) v -> division (m :: e) t (v ++ [t]) -> divisions (b_div b') (1 + nvar b) (v ++ [t])).
Proof.
  intros (We & Wi & Wd) Le Lq Z0 b'. assert (TT : BMapModel.total b = (nvar b + ndiv b)%nat) by reflexivity. assert (ND : ndiv b' = S (ndiv b)) by (unfold ndiv, b', with_div, alloc_div; cbn [b_div set_eq]; rewrite app_length, map_length; cbn; lia). assert (NV : nvar b' = nvar b) by reflexivity.
  assert (PD : forall n (l : list (list Z)), rows_of n l -> rows_of (S n) (map (fun r => r ++ [0]) l)). { intros n l F. unfold rows_of in *. rewrite Forall_map. revert F. apply Forall_impl. intros r Hr. rewrite app_length. cbn. lia. }
  assert (DB : b_div b' = map (fun r => r ++ [0]) (b_div b) ++ [m :: e]) by reflexivity.
  split; [repeat split|]. split; [reflexivity|]. split.
  { assert (T' : BMapModel.total b' = S (BMapModel.total b)) by (unfold BMapModel.total in *; lia). unfold wf. rewrite T'. split; [|split].
    - apply Forall_app. split; [apply PD; exact We|constructor; [exact Lq|constructor]].
    - apply PD. exact Wi.
    - rewrite DB. apply Forall_app. split; [apply PD; exact Wd|constructor; [cbn [length]; lia|constructor]]. }
  split; [exact ND|]. split; [|split; [|split]].
  - intros O k j Hk Hj. rewrite NV, DB. rewrite ND in Hk. destruct (Nat.eq_dec k (ndiv b)) as [->|Nk].
    + rewrite app_nth2 by (rewrite map_length; unfold ndiv; lia). rewrite map_length. unfold ndiv at 1 2. rewrite Nat.sub_diag. cbn [nth hd]. intros _. change (2 + nvar b + j)%nat with (S (1 + nvar b + j)). cbn [nth]. destruct (Nat.eq_dec j (ndiv b)) as [->|]; [rewrite TT in Z0; rewrite <- Z0 at 2; f_equal; lia|]. apply nth_overflow. lia.
    + rewrite app_nth1 by (rewrite map_length; unfold ndiv in *; lia). rewrite nth_map_pad0 by (unfold ndiv in *; lia). rewrite hd_pad0, nth_pad0. apply O; lia.
  - intros D Hm. rewrite DB. apply Forall_app. split; [|constructor; [exact Hm|constructor]]. rewrite Forall_map. revert D. apply Forall_impl. intros r. rewrite hd_pad0. auto.
  - intros v t Lv. unfold system. cbn [b' with_div set_eq b_eq b_ineq alloc_div]. rewrite Forall_app. rewrite <- (Forall_map_iff (fun r => r ++ [0]) (zero_on v)), <- (Forall_map_iff (fun r => r ++ [0]) (nonneg_on v)).
    + split; [intros [[A B] C]; inversion B; subst; split; [split; assumption|assumption]|]. intros [[A C] B]. split; [split; [exact A|constructor; [exact B|constructor]]|exact C].
    + intros r Hr. unfold nonneg_on. rewrite dot_pad0; [reflexivity|]. pose proof (proj1 (Forall_forall _ _) Wi r Hr). cbn beta in *. lia.
    + intros r Hr. unfold zero_on. rewrite dot_pad0; [reflexivity|]. pose proof (proj1 (Forall_forall _ _) We r Hr). cbn beta in *. lia.
  - intros v t Lv DV DN k Hk. fold (ndiv b') in Hk. rewrite ND in Hk. rewrite DB. destruct (Nat.eq_dec k (ndiv b)) as [->|Nk].
    + rewrite app_nth2 by (rewrite map_length; unfold ndiv; lia). rewrite map_length. unfold ndiv at 1. rewrite Nat.sub_diag. cbn [nth]. replace (nth (1 + nvar b + ndiv b) (v ++ [t]) 0) with t; [exact DN|]. rewrite app_nth2 by lia. replace (1 + nvar b + ndiv b - length v)%nat with O by lia. reflexivity.
    + rewrite app_nth1 by (rewrite map_length; unfold ndiv in *; lia). rewrite nth_map_pad0 by (unfold ndiv in *; lia). rewrite app_nth1 by lia. specialize (DV k ltac:(unfold ndiv in *; lia)). unfold division in *. rewrite hd_pad0. destruct DV as [DV|DV]; [left; exact DV|right].
      assert (Lk : length (nth k (b_div b) []) = (2 + BMapModel.total b)%nat) by (apply rows_nth; [exact Wd|unfold ndiv in *; lia]). replace (tl (nth k (b_div b) [] ++ [0])) with (tl (nth k (b_div b) []) ++ [0]) by (destruct (nth k (b_div b) []); [discriminate|reflexivity]). rewrite dot_pad0 by (rewrite (tl_length _ (1 + BMapModel.total b)); lia). exact DV.
Qed.

(** ** the expressions *)
Lemma map2_ext_f (f g : Z -> Z -> Z) l : (forall x y, f x y = g x y) -> forall m, map2 f l m = map2 g l m.
Proof. intros H. induction l as [|x l IH]; intros [|y m]; cbn [map2]; try reflexivity. rewrite H, IH. reflexivity. Qed.
Section New.
Variables (V N : nat) (T : mat) (C2 : option mat).
(** the variables that are expressed by the compression, in terms of the others *)
Definition xrow (i : nat) : list Z := match C2 with Some M => mrow M i | None => zupd (repeat 0 (1 + V)) i 1 end.
Definition xval (i : nat) (v : list Z) : Z := dot (xrow i) (firstn (1 + V) v).
Definition wval (ps : list nat) (v : list Z) (j : nat) : Z := if get T j j =? 1 then xval j v else nth (nth j ps O) v 0.
Definition places (i : nat) (ps : list nat) (tot : nat) : Prop :=
  length ps = i /\ (forall j, (j < i)%nat -> if get T j j =? 1 then nth j ps O = j else (1 + V <= nth j ps O < 1 + tot)%nat) /\
  (forall j k, (j < k < i)%nat -> get T j j <> 1 -> get T k k <> 1 -> nth j ps O <> nth k ps O).
Hypothesis XL : forall i, (i < N)%nat -> length (xrow i) = (1 + V)%nat.
Hypothesis NV : match C2 with Some _ => (N <= 1 + V)%nat | None => N = (1 + V)%nat end.

Lemma firstn_app_len {A} (l m : list A) n : length l = n -> firstn n (l ++ m) = l.
Proof. intros <-. rewrite firstn_app, firstn_all, Nat.sub_diag. apply app_nil_r. Qed.
Lemma new_div_expr_ok i ps tot : (i < N)%nat -> (V <= tot)%nat -> places i ps tot -> let e := new_div_expr (2 + tot) N T C2 V ps i in
  length e = (2 + tot)%nat /\ nth (1 + tot) e 0 = 0 /\
  (forall v, length v = (2 + tot)%nat -> dot e v = xval i v - sumn i (fun j => get T i j * wval ps v j)).
Proof.
  intros Hi HV (PL & P1 & P2). cbn zeta. unfold new_div_expr. set (e0 := match C2 with Some M => _ | None => _ end). set (F := fun e j => _).
  set (tg := fun j => match C2 with None => True | Some _ => get T j j <> 1 end).
  assert (PT : forall j, (j < i)%nat -> (nth j ps O < 1 + tot)%nat). { intros j Hj. specialize (P1 j Hj). destruct (get T j j =? 1); [|lia]. destruct C2; lia. }
  assert (INV : forall k, (k <= i)%nat -> let e := fold_left F (seq 0 k) e0 in length e = (2 + tot)%nat /\ nth (1 + tot) e 0 = 0 /\ (forall j, (k <= j < i)%nat -> tg j -> nth (nth j ps O) e 0 = 0) /\
    (forall v, length v = (2 + tot)%nat -> dot e v = xval i v - sumn k (fun j => get T i j * wval ps v j))).
  { induction k as [|k IH]; intros Hk.
    - cbn [seq fold_left sumn]. cbn zeta. assert (E0 : forall v, length v = (2 + tot)%nat -> dot e0 v = xval i v).
      { intros v Lv. unfold e0, xval, xrow. pose proof (XL i Hi) as LX. unfold xrow in LX. destruct C2 as [M|].
        - rewrite <- (firstn_skipn (1 + V) v) at 1. rewrite dot_app2 by (rewrite LX, firstn_length; lia). rewrite dot_repeat0. ring.
        - rewrite !dot_zupd by (rewrite repeat_length; lia). rewrite !dot_repeat0, !nth_repeat. rewrite <- (firstn_skipn (1 + V) v) at 1. rewrite app_nth1 by (rewrite firstn_length; lia). reflexivity. }
      assert (LE : length e0 = (2 + tot)%nat). { unfold e0. pose proof (XL i Hi) as LX. unfold xrow in LX. destruct C2 as [M|]; [rewrite app_length, LX, repeat_length; lia|rewrite zupd_length, repeat_length; reflexivity]. }
      assert (HI : forall q, (1 + V <= q)%nat -> nth q e0 0 = 0). { intros q Hq. unfold e0. pose proof (XL i Hi) as LX. unfold xrow in LX. destruct C2 as [M|]; [rewrite app_nth2 by lia; apply nth_repeat|]. rewrite nth_zupd. destruct (Nat.eqb_spec q i); [lia|]. cbn [andb]. apply nth_repeat. }
      split; [exact LE|]. split; [apply HI; lia|]. split; [|intros v Lv; rewrite E0 by exact Lv; ring]. intros j Hj Tj. specialize (P1 j ltac:(lia)). destruct (Z.eqb_spec (get T j j) 1) as [E1|E1]; [|apply HI; lia].
      rewrite P1. unfold tg in Tj. unfold e0. destruct C2 as [M|]; [contradiction|]. rewrite nth_zupd. destruct (Nat.eqb_spec j i); [lia|]. cbn [andb]. apply nth_repeat.
    - rewrite seq_S, fold_left_app. cbn [fold_left Nat.add]. destruct (IH ltac:(lia)) as (L & Z0 & ZT & DT). set (e := fold_left F (seq 0 k) e0) in *. cbn [sumn]. unfold F. pose proof (P1 k ltac:(lia)) as Pk. pose proof (PT k ltac:(lia)) as PTk.
      destruct (Z.eqb_spec (get T i k) 0) as [E|E].
      { split; [exact L|]. split; [exact Z0|]. split; [intros j Hj; apply ZT; lia|]. intros v Lv. rewrite DT by exact Lv. rewrite E. ring. }
      assert (UPD : tg k -> (forall v, length v = (2 + tot)%nat -> wval ps v k = nth (nth k ps O) v 0) -> let e' := zupd e (nth k ps O) (- get T i k) in length e' = (2 + tot)%nat /\ nth (1 + tot) e' 0 = 0 /\ (forall j, (S k <= j < i)%nat -> tg j -> nth (nth j ps O) e' 0 = 0) /\
        (forall v, length v = (2 + tot)%nat -> dot e' v = xval i v - (sumn k (fun j => get T i j * wval ps v j) + get T i k * wval ps v k))).
      { intros Tk WV. cbn zeta. split; [rewrite zupd_length; exact L|]. split; [rewrite nth_zupd; destruct (Nat.eqb_spec (1 + tot) (nth k ps O)); [lia|exact Z0]|]. split.
        - intros j Hj Tj. rewrite nth_zupd. assert (NE : nth j ps O <> nth k ps O).
          { pose proof (P1 j ltac:(lia)) as Pj. pose proof (P2 k j ltac:(lia)) as Pkj. destruct (Z.eqb_spec (get T k k) 1), (Z.eqb_spec (get T j j) 1); try lia; [|intros F0; apply Pkj; auto]. unfold tg in Tk. destruct C2; [contradiction|lia]. unfold tg in Tj. destruct C2; [contradiction|lia]. }
          destruct (Nat.eqb_spec (nth j ps O) (nth k ps O)); [contradiction|]. cbn [andb]. apply ZT; [lia|exact Tj].
        - intros v Lv. rewrite dot_zupd by lia. rewrite DT by exact Lv. rewrite (ZT k ltac:(lia) Tk). rewrite WV by exact Lv. ring. }
      assert (XN : get T k k <> 1 -> forall v, wval ps v k = nth (nth k ps O) v 0) by (intros N1 v; unfold wval; destruct (Z.eqb_spec (get T k k) 1); [contradiction|reflexivity]).
      unfold tg in UPD, ZT. cbn zeta in *. destruct C2 as [M|] eqn:EC.
      + destruct (Z.eqb_spec (get T k k) 1) as [E1|E1].
        * destruct (Nat.ltb_spec (nth k ps O) N) as [J|J]; [|lia]. rewrite Pk. pose proof (XL k ltac:(lia)) as LX. unfold xrow in LX. rewrite EC in LX.
          assert (LF : length (firstn (1 + V) e) = (1 + V)%nat) by (rewrite firstn_length; lia). assert (LS : length (seq_submul (firstn (1 + V) e) (get T i k) (mrow M k)) = (1 + V)%nat) by (unfold seq_submul; rewrite map2_length; lia).
          assert (HN : forall q, (1 + V <= q)%nat -> nth q (seq_submul (firstn (1 + V) e) (get T i k) (mrow M k) ++ skipn (1 + V) e) 0 = nth q e 0). { intros q Hq. rewrite app_nth2 by lia. rewrite LS, nth_skipn. f_equal. lia. }
          split; [rewrite app_length, LS, skipn_length; lia|]. split; [rewrite HN by lia; exact Z0|]. split.
          -- intros j Hj Tj. rewrite HN; [apply ZT; [lia|exact Tj]|]. pose proof (P1 j ltac:(lia)) as Pj. destruct (Z.eqb_spec (get T j j) 1); [contradiction|lia].
          -- intros v Lv. rewrite <- (firstn_skipn (1 + V) v) at 1. rewrite dot_app2 by (rewrite LS, firstn_length; lia). unfold seq_submul.
             pose proof (DT v Lv) as DV. rewrite <- (firstn_skipn (1 + V) e) in DV at 1. rewrite <- (firstn_skipn (1 + V) v) in DV at 1. rewrite dot_app2 in DV by (rewrite LF, firstn_length; lia).
             replace (map2 (fun d s => d - get T i k * s) (firstn (1 + V) e) (mrow M k)) with (map2 (fun d s => 1 * d + (- get T i k) * s) (firstn (1 + V) e) (mrow M k)) by (apply map2_ext_f; intros; ring).
             rewrite dot_map2 by lia. unfold wval at 2. rewrite E1. cbn [Z.eqb Pos.eqb]. unfold xval at 2, xrow. rewrite EC. lia.
        * destruct (Nat.ltb_spec (nth k ps O) N) as [J|J]; [lia|]. apply UPD; [exact E1|]. intros v _. apply XN. exact E1.
      + apply UPD; [exact I|]. intros v Lv. destruct (Z.eqb_spec (get T k k) 1) as [E1|E1]; [|apply XN; exact E1]. rewrite Pk. unfold wval. rewrite E1. cbn [Z.eqb Pos.eqb]. unfold xval, xrow. rewrite EC. rewrite dot_zupd by (rewrite repeat_length; lia). rewrite dot_repeat0, nth_repeat. rewrite <- (firstn_skipn (1 + V) v) at 2. rewrite app_nth1 by (rewrite firstn_length; lia). ring. }
  destruct (INV i (le_n i)) as (A1 & A2 & _ & A4). split; [exact A1|]. split; [exact A2|exact A4].
Qed.

(** ** the loop *)
Hypothesis TD : forall i, (i < N)%nat -> 0 < get T i i.
Hypothesis T1 : forall i j, (i < N)%nat -> (j < i)%nat -> get T i i = 1 -> get T i j = 0.
Definition eqn (w : nat -> Z) (v : list Z) (i : nat) : Prop := xval i v = sumn i (fun j => get T i j * w j) + get T i i * w i.
Lemma xval_app i v x : (1 + V <= length v)%nat -> xval i (v ++ x) = xval i v.
Proof. intros L. unfold xval. rewrite firstn_app. replace (1 + V - length v)%nat with O by lia. cbn [firstn]. rewrite app_nil_r. reflexivity. Qed.
Lemma add_new_divs_ok : forall k i0 ps b, (i0 + k = N)%nat -> wf b -> nvar b = V -> places i0 ps (BMapModel.total b) -> let b2 := add_new_divs (seq i0 k) N T C2 ps b in
  same_space b b2 /\ b_empty b2 = b_empty b /\ wf b2 /\ (ordered b -> ordered b2) /\ (denoms (b_div b) -> denoms (b_div b2)) /\ (ndiv b <= ndiv b2)%nat /\
  (forall v x, length v = (1 + BMapModel.total b)%nat -> length x = (ndiv b2 - ndiv b)%nat -> system (b_eq b2) (b_ineq b2) (v ++ x) ->
     system (b_eq b) (b_ineq b) v /\ (divisions (b_div b) (1 + V) v -> divisions (b_div b2) (1 + V) (v ++ x)) /\
     exists w, (forall j, (j < i0)%nat -> w j = wval ps v j) /\ forall i, (i0 <= i < N)%nat -> eqn w v i) /\
  (forall v w, length v = (1 + BMapModel.total b)%nat -> system (b_eq b) (b_ineq b) v -> (forall j, (j < i0)%nat -> w j = wval ps v j) -> (forall i, (i0 <= i < N)%nat -> eqn w v i) ->
     exists x, length x = (ndiv b2 - ndiv b)%nat /\ system (b_eq b2) (b_ineq b2) (v ++ x)).
Proof.
  induction k as [|k IH]; intros i ps b Hk W HV PL; cbn [seq add_new_divs]; cbn zeta.
  { split; [apply same_space_refl|]. split; [reflexivity|]. split; [exact W|]. split; [auto|]. split; [auto|]. split; [lia|]. split.
    - intros v x Lv Lx S1. rewrite Nat.sub_diag in Lx. destruct x; [|discriminate]. rewrite app_nil_r in *. split; [exact S1|]. split; [auto|]. exists (wval ps v). split; [reflexivity|]. intros i' Hi'. lia.
    - intros v w Lv S1 _ _. exists []. rewrite app_nil_r. rewrite Nat.sub_diag. auto. }
  assert (TT : BMapModel.total b = (nvar b + ndiv b)%nat) by reflexivity. pose proof PL as (PL1 & PL2 & PL3). destruct (Z.eqb_spec (get T i i) 1) as [E1|E1].
  - destruct (IH (S i) (ps ++ [i]) b ltac:(lia) W HV) as (I1 & I2 & I3 & I4 & I5 & I6 & I7 & I8).
    { split; [rewrite app_length; cbn; lia|]. split.
      - intros j Hj. destruct (Nat.eq_dec j i) as [->|]; [rewrite E1; cbn [Z.eqb Pos.eqb]; rewrite app_nth2, PL1, Nat.sub_diag by lia; reflexivity|]. rewrite app_nth1 by lia. apply PL2. lia.
      - intros j l Hj Nj Nl. destruct (Nat.eq_dec l i) as [->|]; [contradiction|]. rewrite !app_nth1 by lia. apply PL3; auto; lia. }
    assert (WP : forall v j, (j < i)%nat -> wval (ps ++ [i]) v j = wval ps v j) by (intros v j Hj; unfold wval; rewrite app_nth1 by lia; reflexivity).
    assert (WI : forall v, wval (ps ++ [i]) v i = xval i v) by (intros v; unfold wval; rewrite E1; reflexivity).
    assert (S0 : forall w : nat -> Z, sumn i (fun j => get T i j * w j) = 0) by (intros w; apply sumn_0; intros j Hj; rewrite T1 by (auto; lia); ring).
    split; [exact I1|]. split; [exact I2|]. split; [exact I3|]. split; [exact I4|]. split; [exact I5|]. split; [exact I6|]. split.
    + intros v x Lv Lx S1. destruct (I7 v x Lv Lx S1) as (A1 & A2 & w & A3 & A4). split; [exact A1|]. split; [exact A2|]. exists w. split; [intros j Hj; rewrite A3 by lia; apply WP; exact Hj|]. intros i' Hi'. destruct (Nat.eq_dec i' i) as [->|]; [|apply A4; lia]. unfold eqn. rewrite S0, E1, A3 by lia. rewrite WI. ring.
    + intros v w Lv S1 A3 A4. apply (I8 v w Lv S1); [|intros i' Hi'; apply A4; lia]. intros j Hj. destruct (Nat.eq_dec j i) as [->|]; [|rewrite WP by lia; apply A3; lia]. rewrite WI. specialize (A4 i ltac:(lia)). unfold eqn in A4. rewrite S0, E1 in A4. lia.
  - set (p := (1 + BMapModel.total b)%nat). destruct (new_div_expr_ok i ps (BMapModel.total b) ltac:(lia) ltac:(lia) PL) as (LE & ZE & DE). rewrite HV. set (e := new_div_expr (2 + BMapModel.total b) N T C2 V ps i) in *.
    set (q := zupd (seq_neg e) p (get T i i)). change (set_eq (alloc_div b (get T i i :: e)) (b_eq (alloc_div b (get T i i :: e)) ++ [q])) with (with_div b (get T i i :: e) q).
    assert (LN : length (seq_neg e) = (2 + BMapModel.total b)%nat) by (unfold seq_neg; rewrite map_length; exact LE). assert (LQ : length q = (2 + BMapModel.total b)%nat) by (unfold q; rewrite zupd_length; exact LN).
    destruct (with_div_ok b (get T i i) e q W LE LQ ZE) as (D1 & D2 & D3 & D4 & D5 & D6 & D7 & D8). set (b' := with_div b (get T i i :: e) q) in *.
    assert (T' : BMapModel.total b' = S (BMapModel.total b)) by (unfold BMapModel.total; rewrite D4; unfold nvar in *; destruct D1 as (-> & -> & -> & _); lia). assert (NV' : nvar b' = V) by (rewrite <- HV; reflexivity).
    destruct (IH (S i) (ps ++ [p]) b' ltac:(lia) D3 NV') as (I1 & I2 & I3 & I4 & I5 & I6 & I7 & I8).
    { rewrite T'. split; [rewrite app_length; cbn; lia|]. split.
      - intros j Hj. destruct (Nat.eq_dec j i) as [->|]; [destruct (Z.eqb_spec (get T i i) 1); [contradiction|]; rewrite app_nth2, PL1, Nat.sub_diag by lia; cbn [nth]; unfold p; lia|]. rewrite app_nth1 by lia. specialize (PL2 j ltac:(lia)). destruct (_ =? 1); lia.
      - intros j l Hj Nj Nl. destruct (Nat.eq_dec l i) as [->|]; [|rewrite !app_nth1 by lia; apply PL3; auto; lia]. rewrite app_nth1 by lia. rewrite app_nth2, PL1, Nat.sub_diag by lia. cbn [nth]. specialize (PL2 j ltac:(lia)). destruct (Z.eqb_spec (get T j j) 1); [contradiction|]. unfold p. lia. }
    set (b2 := add_new_divs (seq (S i) k) N T C2 (ps ++ [p]) b') in *.
    assert (WP : forall v t j, length v = p -> (j < i)%nat -> wval (ps ++ [p]) (v ++ [t]) j = wval ps v j).
    { intros v t j Lv Hj. unfold wval. rewrite (app_nth1 ps) by lia. rewrite xval_app by (unfold p in Lv; lia). specialize (PL2 j Hj). destruct (Z.eqb_spec (get T j j) 1); [reflexivity|]. apply app_nth1. unfold p in Lv. lia. }
    assert (WI : forall v t, length v = p -> wval (ps ++ [p]) (v ++ [t]) i = t).
    { intros v t Lv. unfold wval. destruct (Z.eqb_spec (get T i i) 1); [contradiction|]. rewrite (app_nth2 ps), PL1, Nat.sub_diag by lia. cbn [nth]. rewrite <- Lv, app_nth2, Nat.sub_diag by lia. reflexivity. }
    assert (WE : forall v t (w : nat -> Z), length v = p -> (forall j, (j < i)%nat -> w j = wval ps v j) -> sumn i (fun j => get T i j * wval ps (v ++ [t]) j) = sumn i (fun j => get T i j * w j)).
    { intros v t w Lv Hw. apply sumn_ext. intros j Hj. f_equal. rewrite Hw by exact Hj. unfold wval. rewrite xval_app by (unfold p in Lv; lia). specialize (PL2 j Hj). destruct (Z.eqb_spec (get T j j) 1); [reflexivity|]. apply app_nth1. unfold p in Lv. lia. }
    assert (DQ : forall v t, length v = p -> dot q (v ++ [t]) = get T i i * t - dot e (v ++ [t])).
    { intros v t Lv. unfold q. rewrite dot_zupd by (unfold p; lia). rewrite dot_seq_neg, nth_seq_neg. unfold p at 1. rewrite ZE. rewrite <- Lv, app_nth2, Nat.sub_diag by lia. cbn [nth]. ring. }
    assert (LV : forall (v : list Z) t, length v = p -> length (v ++ [t]) = (2 + BMapModel.total b)%nat) by (intros v t Lv; rewrite app_length; cbn [length]; unfold p in Lv; lia).
    pose proof (TD i ltac:(lia)) as TP. pose proof D1 as D1'.
    split; [eapply same_space_trans; [exact D1|exact I1]|]. split; [congruence|]. split; [exact I3|]. split; [auto|]. split; [intros DN; apply I5; apply D6; [exact DN|lia]|]. split; [lia|]. split.
    + intros v x Lv Lx S1. fold p in Lv. destruct x as [|t x]; [cbn in Lx; lia|]. replace (v ++ t :: x) with ((v ++ [t]) ++ x) in * by (rewrite <- app_assoc; reflexivity). destruct (I7 (v ++ [t]) x) as (A1 & A2 & w & A3 & A4); [rewrite LV by exact Lv; lia|cbn [length] in Lx; lia|exact S1|].
      apply D7 in A1; [|exact Lv]. destruct A1 as [A0 AQ]. rewrite DQ in AQ by exact Lv. split; [exact A0|]. split.
      * intros DV. apply A2. rewrite <- HV. apply D8; [exact Lv|rewrite HV; exact DV|]. right. cbn [hd tl]. lia.
      * exists w. assert (A3' : forall j, (j < i)%nat -> w j = wval ps v j) by (intros j Hj; rewrite A3 by lia; apply WP; assumption). split; [exact A3'|]. intros i' Hi'. destruct (Nat.eq_dec i' i) as [->|].
        -- unfold eqn. rewrite (A3 i) by lia. rewrite WI by exact Lv. rewrite DE in AQ by (apply LV; exact Lv). rewrite (WE v t w Lv A3') in AQ. rewrite xval_app in AQ by (unfold p in Lv; lia). lia.
        -- specialize (A4 i' ltac:(lia)). unfold eqn in *. rewrite xval_app in A4 by (unfold p in Lv; lia). exact A4.
    + intros v w Lv S1 A3 A4. fold p in Lv. destruct (I8 (v ++ [w i]) w) as (x & Lx & Sx).
      * rewrite LV by exact Lv. lia.
      * apply D7; [exact Lv|]. split; [exact S1|]. rewrite DQ by exact Lv. rewrite DE by (apply LV; exact Lv). rewrite (WE v (w i) w Lv A3). rewrite xval_app by (unfold p in Lv; lia). specialize (A4 i ltac:(lia)). unfold eqn in A4. lia.
      * intros j Hj. destruct (Nat.eq_dec j i) as [->|]; [rewrite WI by exact Lv; reflexivity|]. rewrite WP by (auto; lia). apply A3. lia.
      * intros i' Hi'. unfold eqn. rewrite xval_app by (unfold p in Lv; lia). apply A4. lia.
      * exists (w i :: x). split; [cbn [length]; lia|]. replace (v ++ w i :: x) with ((v ++ [w i]) ++ x) by (rewrite <- app_assoc; reflexivity). exact Sx.
Qed.
End New.

(** ** dropping and introducing *)
Lemma normalize_core b n T C2 : good b -> ordered b -> (0 < ndiv b)%nat -> droppable (ndiv b) b ->
  (forall i, (i < 1 + n)%nat -> length (xrow (nvar b) C2 i) = (1 + nvar b)%nat) -> match C2 with Some _ => (1 + n <= 1 + nvar b)%nat | None => (1 + n)%nat = (1 + nvar b)%nat end ->
  get T 0 0 = 1 -> (forall i, (i < 1 + n)%nat -> 0 < get T i i) -> (forall i j, (i < 1 + n)%nat -> (j < i)%nat -> get T i i = 1 -> get T i j = 0) ->
  (forall p, length p = (1 + nvar b)%nat -> hd 0 p = 1 -> (forall i, (i < length (b_eq b))%nat -> (forall j, (j < ndiv b)%nat -> coef b i j = 0) -> vpart b i p = 0) ->
     (modc (ndiv b) b p <-> exists w, forall i, (i < 1 + n)%nat -> eqn (nvar b) T C2 w p i)) ->
  let b2 := add_new_divs (seq 1 n) (1 + n) T C2 [0%nat] (drop_eq_divs (ndiv b) b) in pres b b2 /\ ordered b2.
Proof.
  intros G OR Hd DR XL NV T0 TD T1 KEY. cbn zeta. pose proof G as (W & A & D & I & R & B). destruct (good_int b 0 G Hd) as [RF EF].
  destruct (drop_eq_divs_ok (ndiv b) b DR) as (D1 & D2 & D3 & D4 & D5 & D6 & D7 & D8). set (b1 := drop_eq_divs (ndiv b) b) in *. destruct (same_space_nvar _ _ D1) as [NV1 RT1].
  assert (TT : BMapModel.total b = (nvar b + ndiv b)%nat) by reflexivity. assert (TT1 : BMapModel.total b1 = (nvar b + ndiv b1)%nat) by (unfold BMapModel.total; lia).
  destruct (add_new_divs_ok (nvar b) (1 + n) T C2 XL NV TD T1 n 1 [0%nat] b1 ltac:(lia) D3 NV1) as (I1 & I2 & I3 & I4 & I5 & I6 & I7 & I8).
  { split; [reflexivity|]. split; [intros j Hj; replace j with O by lia; rewrite T0; reflexivity|]. intros j k Hj. lia. }
  set (b2 := add_new_divs (seq 1 n) (1 + n) T C2 [0%nat] b1) in *. destruct (same_space_nvar _ _ I1) as [NV2 RT2]. assert (TT2 : BMapModel.total b2 = (nvar b + ndiv b2)%nat) by (unfold BMapModel.total; lia).
  assert (W0 : forall v, wval (nvar b) T C2 [0%nat] v 0 = xval (nvar b) C2 0 v) by (intros v; unfold wval; rewrite T0; reflexivity).
  assert (XV : forall i p e, length p = (1 + nvar b)%nat -> xval (nvar b) C2 i (p ++ e) = xval (nvar b) C2 i p) by (intros i p e Lp; apply xval_app; lia).
  assert (FW : forall p e, length p = (1 + nvar b)%nat -> length e = ndiv b2 -> hd 0 p = 1 -> system (b_eq b2) (b_ineq b2) (p ++ e) ->
     exists e0, length e0 = ndiv b /\ system (b_eq b) (b_ineq b) (p ++ e0) /\ (divisions (b_div b) (1 + nvar b) (p ++ e0) -> divisions (b_div b2) (1 + nvar b) (p ++ e))).
  { intros p e Lp Le Hp S2. rewrite <- (firstn_skipn (ndiv b1) e) in S2. rewrite app_assoc in S2. set (e1 := firstn (ndiv b1) e) in *. assert (Le1 : length e1 = ndiv b1) by (unfold e1; rewrite firstn_length; lia).
    destruct (I7 (p ++ e1) (skipn (ndiv b1) e)) as (A1 & A2 & w & A3 & A4); [rewrite app_length; lia|rewrite skipn_length; lia|exact S2|].
    assert (PU : forall i, (i < length (b_eq b))%nat -> (forall j, (j < ndiv b)%nat -> coef b i j = 0) -> vpart b i p = 0) by (apply (D8 p e1); assumption).
    assert (M : modc (ndiv b) b p).
    { apply KEY; auto. exists w. intros i Hi. destruct i as [|i].
      - unfold eqn. cbn [sumn]. rewrite (A3 O) by lia. rewrite W0, T0, XV by exact Lp. ring.
      - specialize (A4 (S i) ltac:(lia)). unfold eqn in *. rewrite XV in A4 by exact Lp. exact A4. }
    destruct (D7 p e1 Lp Le1 A1 M) as (e0 & L0 & S0 & DV). exists e0. split; [exact L0|]. split; [exact S0|]. intros DI. rewrite <- (firstn_skipn (ndiv b1) e). rewrite app_assoc. fold e1. apply A2. apply DV. exact DI. }
  split; [|auto]. apply pres_gen; auto.
  - eapply same_space_trans; eassumption.
  - apply ordered_acyclic. auto.
  - intros v Lv Hv Sv. rewrite NV2, NV1. set (p := firstn (1 + nvar b) v). set (e := skipn (1 + nvar b) v). assert (EV : v = p ++ e) by (symmetry; apply firstn_skipn). assert (Lp : length p = (1 + nvar b)%nat) by (unfold p; rewrite firstn_length; lia). assert (Le : length e = ndiv b2) by (unfold e; rewrite skipn_length; lia).
    clearbody p e. subst v. rewrite hd_app in Hv by (eapply len_ne; exact Lp). destruct (FW p e Lp Le Hv Sv) as (e0 & L0 & S0 & DV). apply DV. apply I; [rewrite app_length; lia|rewrite hd_app by (eapply len_ne; exact Lp); exact Hv|exact S0].
  - intros F. congruence.
  - intros F. congruence.
  - congruence.
  - intros p e Lp Le Hp S1. pose proof (proj2 Hp RF) as H1. destruct (D6 p e Lp Le S1) as (M & e1 & Le1 & S1').
    assert (PU : forall i, (i < length (b_eq b))%nat -> (forall j, (j < ndiv b)%nat -> coef b i j = 0) -> vpart b i p = 0) by (apply (D8 p e1); assumption).
    apply (KEY p Lp H1 PU) in M. destruct M as (w & Hw). destruct (I8 (p ++ e1) w) as (x & Lx & Sx); [rewrite app_length; lia|exact S1'| | |].
    + intros j Hj. replace j with O by lia. rewrite W0, XV by exact Lp. specialize (Hw O ltac:(lia)). unfold eqn in Hw. cbn [sumn] in Hw. rewrite T0 in Hw. lia.
    + intros i Hi. unfold eqn. rewrite XV by exact Lp. apply Hw. lia.
    + exists (e1 ++ x). split; [rewrite app_length; lia|]. rewrite app_assoc. exact Sx.
  - intros p e Lp Le Hp S2. pose proof (proj2 Hp RF) as H1. destruct (FW p e Lp Le H1 S2) as (e0 & L0 & S0 & _). exists e0. auto.
Qed.
