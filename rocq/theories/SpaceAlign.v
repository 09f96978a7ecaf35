(** Adding, naming and replacing parameters of spaces. *)
From Coq Require Import ZArith List Bool Lia Arith.
From Verif Require Import SpaceModel SpaceSpec SpaceBase SpaceOps SpaceOps2 SpaceOps3.
Import ListNotations.

Lemma extend_ok s p i o : okids s -> nparam s <= p -> n_in s <= i -> n_out s <= o ->
  exists s', space_extend s p i o = Some s' /\ okids s' /\ nparam s' = p /\ n_in s' = i /\ n_out s' = o /\
    id0 s' = id0 s /\ id1 s' = id1 s /\ nest0 s' = nest0 s /\ nest1 s' = nest1 s /\
    dl s' Param = dl s Param ++ repeat None (p - nparam s) /\ dl s' In = dl s In ++ repeat None (i - n_in s) /\ dl s' Out = dl s Out ++ repeat None (o - n_out s).
Proof.
  intros O Hp Hi Ho. unfold space_extend.
  destruct (Nat.eqb_spec (nparam s) p) as [E1|E1]; destruct (Nat.eqb_spec (n_in s) i) as [E2|E2]; destruct (Nat.eqb_spec (n_out s) o) as [E3|E3]; cbn [andb].
  { exists s. subst. rewrite !Nat.sub_diag. cbn [repeat]. rewrite !app_nil_r. auto 15. }
  all: rewrite !(proj2 (Nat.leb_le _ _)) by lia; cbn [andb]; eexists; (split; [reflexivity|]);
    change (get_ids s Param 0 (nparam s)) with (dl s Param); change (get_ids s In 0 (n_in s)) with (dl s In); change (get_ids s Out 0 (n_out s)) with (dl s Out);
    set (s' := with_dims _ _ _ _);
    assert (X : okids s' /\ dl s' Param = dl s Param ++ repeat None (p - nparam s) /\ dl s' In = dl s In ++ repeat None (i - n_in s) /\ dl s' Out = dl s Out ++ repeat None (o - n_out s));
    [|destruct X as (X1 & X2 & X3 & X4); auto 15];
    destruct (ids s) as [l|] eqn:I;
    [pose proof (dl_length s Param) as LP; pose proof (dl_length s In) as LI; pose proof (dl_length s Out) as LO; cbn [dim] in LP, LI, LO;
     destruct (dl_of_idl s' (dl s Param ++ repeat None (p - nparam s)) (dl s In ++ repeat None (i - n_in s)) (dl s Out ++ repeat None (o - n_out s))) as (A & B & C & OK);
       [unfold s'; cbn [ids with_dims with_ids]; rewrite <- !app_assoc; reflexivity|rewrite app_length, repeat_length, LP; unfold s'; cbn [nparam with_dims]; lia|
        rewrite app_length, repeat_length, LI; unfold s'; cbn [n_in with_dims]; lia|rewrite app_length, repeat_length, LO; unfold s'; cbn [n_out with_dims]; lia|auto]
    |split; [now apply okids_None|]; rewrite !(dl_None s') by reflexivity; rewrite !(dl_None s) by exact I; rewrite <- !repeat_app;
     unfold s'; cbn [dim nparam n_in n_out with_dims]; repeat split; f_equal; lia].
Qed.

Lemma add_params_ok k s : wf s -> exists s', add_dims s Param k = Some s' /\ wf s' /\ dl s' Param = dl s Param ++ repeat None k /\
    tup_in s' = tup_in s /\ tup_out s' = tup_out s.
Proof.
  revert s. refine (space_ind' _ _). intros p i o a b n0 n1 l H0 H1 W. set (s := mksp p i o a b n0 n1 l) in *.
  pose proof (proj1 (wf_eq s) W) as (O & N0 & N1). cbn [nest0 nest1 n_in n_out s] in N0, N1.
  assert (X : forall n j (Hn : match n with Some n => wf n -> exists s', add_dims n Param k = Some s' /\ wf s' /\ dl s' Param = dl n Param ++ repeat None k /\
      tup_in s' = tup_in n /\ tup_out s' = tup_out n | None => True end), nestok n j (dl s Param) ->
     exists x, match n with None => Some None | Some n => match add_dims n Param k with Some n' => Some (Some n') | None => None end end = Some x /\
       nestok x j (dl s Param ++ repeat None k) /\ inn x = inn n).
  { intros [n|] j Hx N; [|exists None; auto]. destruct N as (W' & K & P).
    destruct (Hx W') as (n' & E & Wn & Pn & T1 & T2). exists (Some n'). rewrite E. split; [reflexivity|]. split.
    - split; [exact Wn|]. split; [|rewrite Pn, P; reflexivity].
      rewrite !tup_in_eq in T1. rewrite !tup_out_eq in T2. injection T1 as _ T1 _. injection T2 as _ T2 _.
      apply (f_equal (@length _)) in T1, T2. rewrite !dl_length in T1, T2. cbn [dim] in T1, T2. lia.
    - cbn [inn]. rewrite !tuples_eq, T1, T2. reflexivity. }
  destruct (X n0 i H0 N0) as (x0 & E0 & K0 & I0). destruct (X n1 o H1 N1) as (x1 & E1 & K1 & I1).
  destruct (extend_ok s (nparam s + k) (n_in s) (n_out s) O) as (s' & Es & OK & D1 & D2 & D3 & D4 & D5 & D6 & D7 & DP & DI & DO); [lia|lia|lia|].
  exists (with_nested (with_nested s' In x0) Out x1). split.
  { unfold s. cbn [add_dims]. change (mksp p i o a b n0 n1 l) with s. rewrite Es. cbn [nest0 nest1 s]. rewrite E0, E1. reflexivity. }
  set (r := with_nested (with_nested s' In x0) Out x1).
  assert (D : forall t, dl r t = dl s' t) by (intros t; apply dl_with; destruct t; reflexivity).
  replace (nparam s + k - nparam s) with k in DP by lia. rewrite Nat.sub_diag in DI, DO. cbn [repeat] in DI, DO. rewrite app_nil_r in DI, DO.
  split. { apply wf_eq. split; [exact OK|]. rewrite D, DP. unfold r. cbn [nest0 nest1 n_in n_out with_nested]. rewrite D2, D3. split; [exact K0|exact K1]. }
  split; [now rewrite D, DP|]. split.
  - rewrite !tup_in_eq, D, DI. unfold r. cbn [id0 nest0 with_nested]. rewrite I0, D4. reflexivity.
  - rewrite !tup_out_eq, D, DO. unfold r. cbn [id1 nest1 with_nested]. rewrite I1, D5. reflexivity.
Qed.

Lemma set_param_id_ok pos id s : wf s -> pos < nparam s -> exists s', set_dim_id s Param pos id = Some s' /\ wf s' /\ dl s' Param = update (dl s Param) pos id /\
    tup_in s' = tup_in s /\ tup_out s' = tup_out s.
Proof.
  revert s. refine (space_ind' _ _). intros p i o a b n0 n1 l H0 H1 W Hp. set (s := mksp p i o a b n0 n1 l) in *.
  pose proof (proj1 (wf_eq s) W) as (O & N0 & N1). cbn [nest0 nest1 n_in n_out s] in N0, N1.
  assert (X : forall n j (Hn : match n with Some n => wf n -> pos < nparam n -> exists s', set_dim_id n Param pos id = Some s' /\ wf s' /\ dl s' Param = update (dl n Param) pos id /\
      tup_in s' = tup_in n /\ tup_out s' = tup_out n | None => True end), nestok n j (dl s Param) ->
     exists x, match n with None => Some None | Some n => match set_dim_id n Param pos id with Some n' => Some (Some n') | None => None end end = Some x /\
       nestok x j (update (dl s Param) pos id) /\ inn x = inn n).
  { intros [n|] j Hx N; [|exists None; auto]. destruct N as (W' & K & P).
    assert (Hn : pos < nparam n). { pose proof (dl_length n Param) as L. rewrite P, dl_length in L. cbn in L. cbn in Hp. lia. }
    destruct (Hx W' Hn) as (n' & E & Wn & Pn & T1 & T2). exists (Some n'). rewrite E. split; [reflexivity|]. split.
    - split; [exact Wn|]. split; [|rewrite Pn, P; reflexivity].
      rewrite !tup_in_eq in T1. rewrite !tup_out_eq in T2. injection T1 as _ T1 _. injection T2 as _ T2 _.
      apply (f_equal (@length _)) in T1, T2. rewrite !dl_length in T1, T2. cbn [dim] in T1, T2. lia.
    - cbn [inn]. rewrite !tuples_eq, T1, T2. reflexivity. }
  destruct (X n0 i H0 N0) as (x0 & E0 & K0 & I0). destruct (X n1 o H1 N1) as (x1 & E1 & K1 & I1).
  set (r := with_nested (with_nested s In x0) Out x1).
  assert (D : forall t, dl r t = dl s t) by (intros t; apply dl_with; destruct t; reflexivity).
  destruct (set_id_ok r Param pos id) as (s' & Es & F & OK & G); [exact O|exact Hp|].
  exists s'. split. { unfold s. cbn [set_dim_id nest0 nest1]. rewrite E0, E1. exact Es. }
  destruct (frame_all _ _ F) as (F1 & F2 & F3 & F4 & F5 & F6 & F7).
  assert (DP : dl s' Param = update (dl s Param) pos id).
  { assert (L : length (update (dl s Param) pos id) = nparam s) by (rewrite update_length; rewrite dl_length; [reflexivity|exact Hp]).
    apply dl_is; [rewrite (frame_dim _ _ _ F), L; reflexivity|]. intros j Hj. rewrite G. cbn [dtype_eqb andb].
    rewrite nth_update by (rewrite dl_length; exact Hp). destruct (Nat.eqb j pos); [reflexivity|]. rewrite <- D. now rewrite nth_dl. }
  assert (DI : dl s' In = dl s In). { rewrite <- D. apply (frame_dl_other _ _ _ F). intros j. now rewrite G. }
  assert (DO : dl s' Out = dl s Out). { rewrite <- D. apply (frame_dl_other _ _ _ F). intros j. now rewrite G. }
  split. { apply wf_eq. split; [exact OK|]. rewrite DP, F2, F3, F6, F7. split; [exact K0|exact K1]. }
  split; [exact DP|]. split.
  - rewrite !tup_in_eq, DI, F4, F6. unfold r. cbn [id0 nest0 with_nested]. rewrite I0. reflexivity.
  - rewrite !tup_out_eq, DO, F5, F7. unfold r. cbn [id1 nest1 with_nested]. rewrite I1. reflexivity.
Qed.

(** ** replacing the parameters *)
Fixpoint tdepth (t : tuple) : nat :=
  match t with T _ _ (Some (a, b)) => S (Nat.max (tdepth a) (tdepth b)) | T _ _ None => 0 end.
Lemma depth_eq s : depth s = S (Nat.max (tdepth (tup_in s)) (tdepth (tup_out s))).
Proof.
  revert s. refine (space_ind' _ _). intros p i o a b n0 n1 l H0 H1. rewrite tup_in_eq, tup_out_eq. cbn [depth nest0 nest1 tdepth].
  f_equal. f_equal.
  - destruct n0 as [n|]; [|reflexivity]. cbn [inn]. rewrite tuples_eq. exact H0.
  - destruct n1 as [n|]; [|reflexivity]. cbn [inn]. rewrite tuples_eq. exact H1.
Qed.
Lemma dl_nil_inv s : dl s Param = [] -> nparam s = 0.
Proof. intros H. pose proof (dl_length s Param) as L. rewrite H in L. now cbn in L. Qed.
Lemma replace_loop_ok src : forall fuel dst, wf dst -> depth dst <= fuel ->
  exists s', replace_params_loop fuel dst src = Some s' /\ wf s' /\ dl s' Param = dl src Param /\ tup_in s' = tup_in dst /\ tup_out s' = tup_out dst.
Proof.
  induction fuel as [|f IH]; intros dst W Hf; [rewrite depth_eq in Hf; lia|]. cbn [replace_params_loop].
  destruct (has_equal_params dst src) eqn:E.
  { exists dst. apply equal_params_ok in E. auto. }
  destruct (drop_params_ok 0 (nparam dst) dst W) as (d1 & -> & W1 & P1 & T1 & T1'); [lia|]. cbn [bind].
  replace (nparam dst) with (length (dl dst Param)) in P1 by apply dl_length. rewrite cut_all in P1.
  destruct (add_params_ok (nparam src) d1 W1) as (d2 & -> & W2 & P2 & T2 & T2'). cbn [bind]. rewrite P1 in P2. cbn [app] in P2.
  assert (NP : nparam d2 = nparam src). { pose proof (dl_length d2 Param) as L. rewrite P2, repeat_length in L. now cbn in L. }
  destruct (copy_ids_ok d2 Param 0 src Param) as (d3 & -> & F & O3 & G); [now apply wf_okids|cbn; lia|]. cbn [bind].
  destruct (frame_all _ _ F) as (F1 & F2 & F3 & F4 & F5 & F6 & F7).
  assert (DP : dl d3 Param = dl src Param).
  { apply dl_is; rewrite (frame_dim _ _ _ F); cbn [dim]; [rewrite dl_length; exact NP|]. intros j Hj. rewrite G. cbn [dtype_eqb andb Nat.leb Nat.add dim].
    rewrite (proj2 (Nat.ltb_lt _ _)) by lia. rewrite <- (nth_dl d2), P2, nth_repeat, or_else_None, Nat.sub_0_r. now rewrite nth_dl. }
  assert (DI : dl d3 In = dl d2 In) by (apply (frame_dl_other _ _ _ F); intros j; now rewrite G).
  assert (DO : dl d3 Out = dl d2 Out) by (apply (frame_dl_other _ _ _ F); intros j; now rewrite G).
  rewrite F6, F7. rewrite depth_eq, <- T1, <- T1', <- T2, <- T2' in Hf. rewrite tup_in_eq, tup_out_eq in Hf. cbn [tdepth] in Hf.
  pose proof (proj1 (wf_eq d2) W2) as (_ & N0 & N1).
  assert (X : forall n k, nestok n k (dl d2 Param) -> match inn n with Some (a, b) => S (Nat.max (tdepth a) (tdepth b)) | None => 0 end <= f ->
     exists x, opt_map_nest (fun n => replace_params_loop f n src) n = Some x /\ nestok x k (dl src Param) /\ inn x = inn n).
  { intros [n|] k N Hd; [|exists None; auto]. destruct N as (Wn & K & P). cbn [inn] in Hd. rewrite tuples_eq, <- depth_eq in Hd.
    destruct (IH n Wn Hd) as (n' & E' & Wn' & Pn & Ta & Tb). exists (Some n'). unfold opt_map_nest. rewrite E'. split; [reflexivity|]. split.
    - split; [exact Wn'|]. split; [|exact Pn].
      rewrite !tup_in_eq in Ta. rewrite !tup_out_eq in Tb. injection Ta as _ Ta _. injection Tb as _ Tb _.
      apply (f_equal (@length _)) in Ta, Tb. rewrite !dl_length in Ta, Tb. cbn [dim] in Ta, Tb. lia.
    - cbn [inn]. rewrite !tuples_eq, Ta, Tb. reflexivity. }
  destruct (X (nest0 d2) (n_in d2) N0 ltac:(lia)) as (x0 & -> & K0 & I0). cbn [bind].
  destruct (X (nest1 d2) (n_out d2) N1 ltac:(lia)) as (x1 & -> & K1 & I1). cbn [bind].
  eexists. split; [reflexivity|]. set (r := with_nested _ _ _).
  assert (D : forall t, dl r t = dl d3 t) by (intros t; apply dl_with; destruct t; reflexivity).
  split. { apply wf_eq. split; [exact O3|]. rewrite D, DP. unfold r. cbn [nest0 nest1 n_in n_out with_nested]. rewrite F2, F3. auto. }
  split; [now rewrite D|]. split.
  - rewrite <- T1, <- T2, (tup_in_eq r), (tup_in_eq d2), D, DI. unfold r. cbn [id0 nest0 with_nested]. now rewrite I0, F4.
  - rewrite <- T1', <- T2', (tup_out_eq r), (tup_out_eq d2), D, DO. unfold r. cbn [id1 nest1 with_nested]. now rewrite I1, F5.
Qed.
Lemma replace_params_ok dst src : wf dst ->
  exists s', replace_params dst src = Some s' /\ wf s' /\ dl s' Param = dl src Param /\ tup_in s' = tup_in dst /\ tup_out s' = tup_out dst.
Proof. intros W. apply replace_loop_ok; auto. Qed.
