(** Dropping and adding dimensions, joining, wrapping, reversing. *)
From Coq Require Import ZArith List Bool Lia Arith.
From Verif Require Import SpaceModel SpaceSpec SpaceBase SpaceOps.
Import ListNotations.

Lemma repeat_cut first num n : first + num <= n -> cut (repeat None n) first num = repeat None (n - num).
Proof.
  intros H. apply nth_ext_opt.
  - rewrite cut_length; rewrite !repeat_length; lia.
  - intros j _. rewrite nth_cut by (rewrite repeat_length; lia). now rewrite !nth_repeat.
Qed.

(** resetting a tuple, whatever it was *)
Lemma reset_gen s t : t <> Param -> okids s ->
  (forall t', t' <> t -> t' <> Param -> nestok (nested s t') (dim s t') (dl s Param)) ->
  wf (reset s t) /\ dl (reset s t) Param = dl s Param /\
  tup (reset s t) t = T None (dl s t) None /\ (forall t', t' <> t -> tup (reset s t) t' = tup s t').
Proof.
  intros Ht O N.
  set (r := with_nested (with_tuple_id s t None) t None).
  assert (E : reset s t = r).
  { unfold r, reset. destruct s as [p i o a b n0 n1 l]. destruct t; [congruence| |]; cbn.
    - destruct a, n0; reflexivity.
    - destruct b, n1; reflexivity. }
  rewrite E. assert (D : forall t', dl r t' = dl s t').
  { intros t'. apply dl_with; unfold r; destruct t, t'; reflexivity. }
  split.
  { apply wf_eq. rewrite D. split; [unfold r; destruct t; exact O|]. 
    split.
    - destruct t; [congruence|exact I|]. apply (N In); congruence.
    - destruct t; [congruence| |exact I]. apply (N Out); congruence. }
  split; [apply D|]. split.
  - rewrite tup_eq, D. unfold r. destruct t; [congruence| |]; reflexivity.
  - intros t' Q. rewrite !tup_eq, D. unfold r. destruct t, t'; try congruence; reflexivity.
Qed.

(** the space after dropping names, before the tuple is reset *)
Definition dropped (s : space) (t : dtype) (first num : nat) : space :=
  let l := match ids s with None => None | Some _ => Some (drop_ids s t first num) end in
  let s' := with_ids s l in
  match t with
  | Param => with_dims s' (nparam s - num) (n_in s) (n_out s)
  | In => with_dims s' (nparam s) (n_in s - num) (n_out s)
  | Out => with_dims s' (nparam s) (n_in s) (n_out s - num)
  end.
Lemma dropped_ok s t first num : okids s -> first + num <= dim s t ->
  okids (dropped s t first num) /\ (forall t', dl (dropped s t first num) t' = cut_of s t first num t') /\
  (forall t', dim (dropped s t first num) t' = if dtype_eqb t t' then dim s t' - num else dim s t').
Proof.
  intros O H. set (s' := dropped s t first num).
  assert (D : forall t', dim s' t' = if dtype_eqb t t' then dim s t' - num else dim s t').
  { intros t'. unfold s', dropped. destruct t, t'; reflexivity. }
  assert (CL : forall t', length (cut_of s t first num t') = dim s' t').
  { intros t'. rewrite D. unfold cut_of. destruct (dtype_eqb t t') eqn:Q; [|apply dl_length].
    assert (t = t') by (destruct t, t'; try discriminate; reflexivity). subst t'. rewrite cut_length; rewrite dl_length; lia. }
  destruct (ids s) as [l|] eqn:I.
  - assert (E : ids s' = Some (cut_of s t first num Param ++ cut_of s t first num In ++ cut_of s t first num Out)).
    { rewrite <- (drop_ids_ok s t first num O H). unfold s', dropped. rewrite I. now destruct t. }
    destruct (dl_of_idl s' _ _ _ E (CL Param) (CL In) (CL Out)) as (A & B & C & OK).
    split; [exact OK|]. split; [|exact D]. intros []; assumption.
  - assert (E : ids s' = None) by (unfold s', dropped; rewrite I; now destruct t).
    split; [now apply okids_None|]. split; [|exact D]. intros t'. rewrite dl_None by exact E. rewrite D. unfold cut_of.
    destruct (dtype_eqb t t') eqn:Q; [|rewrite dl_None by exact I; reflexivity].
    assert (t = t') by (destruct t, t'; try discriminate; reflexivity). subst t'. rewrite dl_None by exact I. symmetry. apply repeat_cut. lia.
Qed.
Lemma drop_dims_in_eq s t first num : t <> Param -> num <> 0 -> first + num <= dim s t -> drop_dims s t first num = Some (reset (dropped s t first num) t).
Proof.
  intros Ht Hn H. destruct s as [p i o a b n0 n1 l]. cbn [drop_dims]. destruct (Nat.eqb_spec num 0); [lia|].
  unfold check_range. rewrite (proj2 (Nat.leb_le _ _)) by exact H. destruct t; [congruence| |]; reflexivity.
Qed.

(** dropping dimensions of a tuple *)
Lemma drop_dims_ok s t first num : t <> Param -> wf s -> first + num <= dim s t ->
  exists s', drop_dims s t first num = Some s' /\ wf s' /\ dl s' Param = dl s Param /\
    tup s' t = T None (cut (dl s t) first num) None /\ (forall t', t' <> t -> tup s' t' = tup s t').
Proof.
  intros Ht W H. destruct (Nat.eq_dec num 0) as [->|Hn].
  - exists (reset s t). split; [destruct s as [p i o a b n0 n1 l]; reflexivity|].
    destruct (reset_ok s t Ht W) as (A & B & C & D & _). rewrite cut_0. auto.
  - rewrite drop_dims_in_eq by assumption. eexists. split; [reflexivity|].
    pose proof (proj1 (wf_eq s) W) as (O & N0 & N1).
    destruct (dropped_ok s t first num O H) as (OK & DL & DM).
    set (s' := dropped s t first num) in *.
    assert (P : dl s' Param = dl s Param). { rewrite DL. unfold cut_of. destruct t; [congruence| |]; reflexivity. }
    assert (X : wf (reset s' t) /\ dl (reset s' t) Param = dl s' Param /\
       tup (reset s' t) t = T None (dl s' t) None /\ (forall t', t' <> t -> tup (reset s' t) t' = tup s' t')).
    { apply reset_gen; [exact Ht|exact OK|]. rewrite P. intros [] Q1 Q2; try congruence; unfold s', dropped; destruct t; try congruence; cbn; assumption. }
    destruct X as (X1 & X2 & X3 & X4). split; [exact X1|].
    assert (DT : dl s' t = cut (dl s t) first num). { rewrite DL. unfold cut_of. destruct t; reflexivity. }
    assert (DO : forall t', t' <> t -> dl s' t' = dl s t'). { intros t' Q. rewrite DL. unfold cut_of. destruct t, t'; try congruence; reflexivity. }
    split; [rewrite X2; apply DO; congruence|]. split; [now rewrite X3, DT|].
    intros t' Q. rewrite X4 by exact Q. rewrite !tup_eq, DO by exact Q. f_equal; unfold s', dropped; destruct t, t'; try congruence; reflexivity.
Qed.

(** dropping parameters *)
Lemma drop_params_ok first num s : wf s -> first + num <= nparam s ->
  exists s', drop_dims s Param first num = Some s' /\ wf s' /\ dl s' Param = cut (dl s Param) first num /\
    tup_in s' = tup_in s /\ tup_out s' = tup_out s.
Proof.
  revert s. refine (space_ind' _ _). intros p i o a b n0 n1 l H0 H1 W H. set (s := mksp p i o a b n0 n1 l) in *.
  destruct (Nat.eq_dec num 0) as [->|Hn].
  - exists s. rewrite cut_0. auto.
  - pose proof (proj1 (wf_eq s) W) as (O & N0 & N1). cbn [nest0 nest1 n_in n_out s] in N0, N1.
    destruct (dropped_ok s Param first num O H) as (OK & DL & DM).
    assert (X : forall n k (Hn : match n with Some n => wf n -> first + num <= nparam n -> exists s', drop_dims n Param first num = Some s' /\ wf s' /\ dl s' Param = cut (dl n Param) first num /\
        tup_in s' = tup_in n /\ tup_out s' = tup_out n | None => True end), nestok n k (dl s Param) ->
       exists x, match n with None => Some None | Some n => match drop_dims n Param first num with Some n' => Some (Some n') | None => None end end = Some x /\
         nestok x k (cut (dl s Param) first num) /\ inn x = inn n).
    { intros [n|] k Hx N; [|exists None; auto]. destruct N as (W' & K & P).
      destruct (Hx W') as (n' & E & Wn & Pn & T1 & T2). { pose proof (dl_length n Param) as L. rewrite P, dl_length in L. cbn in *. lia. }
      exists (Some n'). rewrite E. split; [reflexivity|]. split.
      - split; [exact Wn|]. split; [|rewrite Pn, P; reflexivity].
        rewrite tup_in_eq in T1. rewrite tup_in_eq in T1. rewrite !tup_out_eq in T2. injection T1 as _ T1 _. injection T2 as _ T2 _.
        apply (f_equal (@length _)) in T1, T2. rewrite !dl_length in T1, T2. cbn [dim] in T1, T2. lia.
      - cbn [inn]. rewrite !tuples_eq, T1, T2. reflexivity. }
    destruct (X n0 i H0 N0) as (x0 & E0 & K0 & I0). destruct (X n1 o H1 N1) as (x1 & E1 & K1 & I1).
    exists (with_nested (with_nested (dropped s Param first num) In x0) Out x1). split.
    { unfold s. cbn [drop_dims]. destruct (Nat.eqb_spec num 0); [lia|]. unfold check_range.
      rewrite (proj2 (Nat.leb_le _ _)) by exact H. cbn [nest0 nest1]. rewrite E0, E1. reflexivity. }
    split. { apply wf_eq. split; [exact OK|].
      change (dl (with_nested (with_nested (dropped s Param first num) In x0) Out x1) Param) with (dl (dropped s Param first num) Param).
      rewrite DL. cbn [cut_of dtype_eqb]. split; [exact K0|exact K1]. }
    split. { change (dl (with_nested (with_nested (dropped s Param first num) In x0) Out x1) Param) with (dl (dropped s Param first num) Param). rewrite DL. reflexivity. }
    split.
    + rewrite !tup_in_eq. change (dl (with_nested (with_nested (dropped s Param first num) In x0) Out x1) In) with (dl (dropped s Param first num) In).
      rewrite DL. cbn. rewrite I0. reflexivity.
    + rewrite !tup_out_eq. change (dl (with_nested (with_nested (dropped s Param first num) In x0) Out x1) Out) with (dl (dropped s Param first num) Out).
      rewrite DL. cbn. rewrite I1. reflexivity.
Qed.

(** ** reversing *)
Lemma frame_dl_other s s' t : frame s s' -> (forall j, get_id s' t j = get_id s t j) -> dl s' t = dl s t.
Proof. intros F G. apply dl_ext; [now apply frame_dim|]. intros j _. apply G. Qed.
Lemma swapped_ok s : wf s ->
  exists s', match ids s with
     | None => Some (mksp (nparam s) (n_out s) (n_in s) (id1 s) (id0 s) (nest1 s) (nest0 s) (ids s))
     | Some _ => set_ids (set_ids (Some (mksp (nparam s) (n_out s) (n_in s) (id1 s) (id0 s) (nest1 s) (nest0 s) (ids s))) Out 0 (get_ids s In 0 (n_in s))) In 0 (get_ids s Out 0 (n_out s))
     end = Some s' /\ wf s' /\ view_of s' = v_reverse (view_of s).
Proof.
  intros W. pose proof (proj1 (wf_eq s) W) as (O & N0 & N1).
  set (r := mksp (nparam s) (n_out s) (n_in s) (id1 s) (id0 s) (nest1 s) (nest0 s) (ids s)).
  assert (OR : okids r). { unfold okids, n_id, dim_all in *. cbn. unfold idl in *. cbn. lia. }
  assert (FIN : forall s', frame r s' -> okids s' -> dl s' Param = dl s Param -> dl s' In = dl s Out -> dl s' Out = dl s In -> wf s' /\ view_of s' = v_reverse (view_of s)).
  { intros s' F OK A B C. destruct (frame_all _ _ F) as (F1 & F2 & F3 & F4 & F5 & F6 & F7). split.
    - apply wf_eq. rewrite F6, F7, F2, F3, A. cbn. auto.
    - unfold view_of, v_reverse. cbn [vparams vin vout]. rewrite !tup_in_eq, !tup_out_eq, A, B, C, F4, F5, F6, F7. reflexivity. }
  destruct (ids s) as [l|] eqn:I.
  - change (get_ids s In 0 (n_in s)) with (dl s In). change (get_ids s Out 0 (n_out s)) with (dl s Out).
    pose proof (dl_length s In) as LI. pose proof (dl_length s Out) as LO. cbn [dim] in LI, LO.
    destruct (set_ids_ok (dl s In) r Out 0 OR) as (s1 & E1 & F1 & O1 & G1); [unfold r; cbn [dim n_out]; lia|].
    destruct (set_ids_ok (dl s Out) s1 In 0 O1) as (s2 & E2 & F2 & O2 & G2); [rewrite (frame_dim _ _ _ F1); unfold r; cbn [dim n_in]; lia|].
    rewrite E1, E2. exists s2. split; [reflexivity|]. apply FIN; [exact (frame_trans _ _ _ F1 F2)|exact O2| | |].
    + apply dl_is; rewrite (frame_dim _ _ _ F2), (frame_dim _ _ _ F1); [now rewrite dl_length|].
      intros j Hj. rewrite G2, G1. cbn [dtype_eqb andb]. rewrite nth_dl. cbn in Hj. rewrite !get_id_in by (cbn; lia). unfold idl at 2. rewrite I. reflexivity.
    + apply dl_is; rewrite (frame_dim _ _ _ F2), (frame_dim _ _ _ F1); [now rewrite dl_length|].
      intros j Hj. cbn in Hj. rewrite G2. cbn [dtype_eqb andb Nat.leb]. rewrite (proj2 (Nat.ltb_lt _ _)) by lia. now rewrite Nat.sub_0_r.
    + apply dl_is; rewrite (frame_dim _ _ _ F2), (frame_dim _ _ _ F1); [now rewrite dl_length|].
      intros j Hj. cbn in Hj. rewrite G2, G1. cbn [dtype_eqb andb Nat.leb]. rewrite (proj2 (Nat.ltb_lt _ _)) by lia. now rewrite Nat.sub_0_r.
  - exists r. split; [reflexivity|]. apply FIN; [apply frame_refl|exact OR| | |]; rewrite !dl_None by (try exact I; reflexivity); reflexivity.
Qed.
Lemma match_in_out s : match_ s In s Out = true <-> same (tup_in s) (tup_out s) /\ dl s In = dl s Out.
Proof. apply match_ok. Qed.
Lemma reverse_ok s : wf s -> exists s', reverse s = Some s' /\ wf s' /\
  ((same (tup_in s) (tup_out s) /\ dims (tup_in s) = dims (tup_out s) /\ s' = s) \/
   (~ (same (tup_in s) (tup_out s) /\ dims (tup_in s) = dims (tup_out s)) /\ view_of s' = v_reverse (view_of s))).
Proof.
  intros W. unfold reverse. destruct (match_ s In s Out) eqn:M.
  - exists s. split; [reflexivity|]. split; [exact W|]. left. apply match_in_out in M as [A B]. rewrite tup_in_eq, tup_out_eq in *. auto.
  - destruct (swapped_ok s W) as (s' & E & W' & Vw). exists s'. cbv zeta. split; [exact E|]. split; [exact W'|]. right. split; [|exact Vw].
    intros [A B]. assert (match_ s In s Out = true); [|congruence]. apply match_in_out. split; [exact A|]. rewrite tup_in_eq, tup_out_eq in B. exact B.
Qed.

(** ** joining and wrapping *)
Lemma get_alloc p i o t j : get_id (space_alloc p i o) t j = None.
Proof. unfold get_id. destruct (check_range _ _ _ _); [|reflexivity]. cbn. now destruct (offset (space_alloc p i o) t + j). Qed.
Lemma or_else_None a : or_else a None = a.
Proof. now destruct a. Qed.
Lemma join_ok l r : wf l -> wf r -> dl l Param = dl r Param -> same (tup_out l) (tup_in r) ->
  exists s, join l r = Some s /\ wf s /\ view_of s = V (dl l Param) (tup_in l) (tup_out r).
Proof.
  intros Wl Wr P S. unfold join. rewrite (proj2 (equal_params_ok l r) P). cbn [negb].
  rewrite (proj2 (tuple_is_equal_same l Out r In) S). cbn [negb]. cbv zeta.
  set (a := space_alloc (nparam l) (n_in l) (n_out r)).
  assert (Oa : okids a) by (now apply okids_None).
  assert (Ga : forall t j, get_id a t j = None) by (intros; apply get_alloc).
  destruct (copy_ids_ok a Param 0 l Param Oa) as (s1 & E1 & F1 & O1 & G1); [cbn; lia|].
  destruct (copy_ids_ok s1 In 0 l In O1) as (s2 & E2 & F2 & O2 & G2); [rewrite (frame_dim _ _ _ F1); cbn; lia|].
  destruct (copy_ids_ok s2 Out 0 r Out O2) as (s3 & E3 & F3 & O3 & G3); [rewrite (frame_dim _ _ _ F2), (frame_dim _ _ _ F1); cbn; lia|].
  rewrite E1, E2, E3. cbn [bind]. eexists. split; [reflexivity|].
  pose proof (frame_trans _ _ _ (frame_trans _ _ _ F1 F2) F3) as F. destruct (frame_all _ _ F) as (D1 & D2 & D3 & D4 & D5 & D6 & D7).
  set (s := with_nested _ _ _). cbn in D1, D2, D3.
  assert (DL : forall t, dl s t = dl s3 t) by (intros t; apply dl_with; destruct t; reflexivity).
  assert (A : dl s3 Param = dl l Param).
  { apply dl_is; rewrite (frame_dim _ _ _ F); [now rewrite dl_length|]. intros j Hj. cbn in Hj. rewrite G3, G2, G1. cbn [dtype_eqb andb Nat.leb].
    rewrite (proj2 (Nat.ltb_lt _ _)) by (cbn; lia). rewrite Ga, or_else_None, Nat.sub_0_r. now rewrite nth_dl. }
  assert (B : dl s3 In = dl l In).
  { apply dl_is; rewrite (frame_dim _ _ _ F); [now rewrite dl_length|]. intros j Hj. cbn in Hj. rewrite G3, G2, G1. cbn [dtype_eqb andb Nat.leb].
    rewrite (proj2 (Nat.ltb_lt _ _)) by (cbn; lia). rewrite Ga, or_else_None, Nat.sub_0_r. now rewrite nth_dl. }
  assert (C : dl s3 Out = dl r Out).
  { apply dl_is; rewrite (frame_dim _ _ _ F); [now rewrite dl_length|]. intros j Hj. cbn in Hj. rewrite G3, G2, G1. cbn [dtype_eqb andb Nat.leb].
    rewrite (proj2 (Nat.ltb_lt _ _)) by (cbn; lia). rewrite Ga, or_else_None, Nat.sub_0_r. now rewrite nth_dl. }
  apply wf_eq in Wl as (_ & L0 & _). apply wf_eq in Wr as (_ & _ & R1). split.
  - apply wf_eq. split; [exact O3|]. rewrite DL, A. unfold s. cbn [nest0 nest1 n_in n_out with_nested with_tuple_id]. rewrite D2, D3. split; [exact L0|]. now rewrite P.
  - unfold view_of. rewrite !tup_in_eq, !tup_out_eq, !DL, A, B, C. reflexivity.
Qed.
Lemma join_None l r : ~ (dl l Param = dl r Param /\ same (tup_out l) (tup_in r)) -> join l r = None.
Proof.
  intros H. unfold join. destruct (has_equal_params l r) eqn:E1; [|reflexivity]. destruct (tuple_is_equal l Out r In) eqn:E2; [|reflexivity].
  exfalso. apply H. split; [now apply equal_params_ok|]. now apply tuple_is_equal_same in E2.
Qed.

Lemma wrap_ok s : wf s -> exists w, wrap s = Some w /\ wf w /\ view_of w = v_wrap (view_of s) /\ nest1 w = Some s.
Proof.
  intros W. unfold wrap. set (a := set_alloc (nparam s) (n_in s + n_out s)).
  assert (Oa : okids a) by (now apply okids_None).
  assert (Ga : forall t j, get_id a t j = None).
  { intros t j. rewrite <- (get_alloc (nparam s) 0 (n_in s + n_out s) t j). unfold get_id, check_range. destruct t; reflexivity. }
  destruct (copy_ids_ok a Param 0 s Param Oa) as (s1 & E1 & F1 & O1 & G1); [cbn; lia|].
  destruct (copy_ids_ok s1 Out 0 s In O1) as (s2 & E2 & F2 & O2 & G2); [rewrite (frame_dim _ _ _ F1); cbn; lia|].
  destruct (copy_ids_ok s2 Out (n_in s) s Out O2) as (s3 & E3 & F3 & O3 & G3); [rewrite (frame_dim _ _ _ F2), (frame_dim _ _ _ F1); cbn; lia|].
  cbv zeta. rewrite E1, E2, E3. cbn [bind]. eexists. split; [reflexivity|].
  pose proof (frame_trans _ _ _ (frame_trans _ _ _ F1 F2) F3) as F. destruct (frame_all _ _ F) as (D1 & D2 & D3 & D4 & D5 & D6 & D7).
  set (w := with_nested _ _ _). cbn in D1, D2, D3, D4, D5, D6, D7.
  assert (DL : forall t, dl w t = dl s3 t) by (intros t; apply dl_with; destruct t; reflexivity).
  assert (A : dl s3 Param = dl s Param).
  { apply dl_is; rewrite (frame_dim _ _ _ F); [now rewrite dl_length|]. intros j Hj. cbn in Hj. rewrite G3, G2, G1. cbn [dtype_eqb andb Nat.leb].
    rewrite (proj2 (Nat.ltb_lt _ _)) by (cbn; lia). rewrite Ga, or_else_None, Nat.sub_0_r. now rewrite nth_dl. }
  assert (C : dl s3 Out = dl s In ++ dl s Out).
  { pose proof (dl_length s In) as LI. pose proof (dl_length s Out) as LO. cbn [dim] in LI, LO.
    apply dl_is; rewrite (frame_dim _ _ _ F); [rewrite app_length, LI, LO; reflexivity|]. intros j Hj. cbn in Hj. rewrite G3, G2, G1. cbn [dtype_eqb andb Nat.leb dim].
    rewrite Nat.add_0_l. destruct (Nat.ltb_spec j (n_in s)) as [B|B].
    - rewrite (proj2 (Nat.leb_gt _ _)) by lia. cbn [andb]. rewrite Ga, or_else_None, Nat.sub_0_r, app_nth1 by lia. now rewrite nth_dl.
    - rewrite (proj2 (Nat.leb_le _ _)) by lia. rewrite (proj2 (Nat.ltb_lt _ _)) by lia. cbn [andb]. rewrite Ga, or_else_None, app_nth2 by lia. now rewrite nth_dl, LI. }
  assert (B : dl w In = []). { apply dl_nil. cbn. exact D2. }
  split; [|split; [|reflexivity]].
  - apply wf_eq. split; [exact O3|]. rewrite DL, A. unfold w. cbn [nest0 nest1 n_in n_out with_nested with_tuple_id]. rewrite D3, D6. split; [exact I|]. split; [exact W|]. split; [reflexivity|reflexivity].
  - unfold view_of, v_wrap, wrapped. cbn [vparams vin vout]. rewrite (tup_in_eq w), (tup_out_eq w), B, !DL, A, C. cbn [nest0 nest1 with_nested w id0 id1 inn].
    rewrite D4, D5, D6, tuples_eq, (tup_in_eq s), (tup_out_eq s). reflexivity.
Qed.
