(** Proofs about the insertion of dimensions in spaces, the comparison of
    identifiers and the ranges of dimension maps. *)
From Coq Require Import ZArith List Bool Lia Arith.
From Verif Require Import BMapModel SpaceModel SpaceSpec SpaceBase SpaceOps SpaceAlign ReorderModel BMapLists.
Import ListNotations.
Open Scope nat_scope.

(** ** inserting dimensions *)
Definition insd (d : list (option Z)) (pos k : nat) : list (option Z) := firstn pos d ++ repeat None k ++ skipn pos d.
Lemma insd_length d pos k : pos <= length d -> length (insd d pos k) = length d + k.
Proof. intros. unfold insd. rewrite !app_length, repeat_length, firstn_length, skipn_length. lia. Qed.
Lemma inserted_eq s t t' pos k : pos <= dim s t -> inserted s t t' pos k = if dtype_eqb t t' then insd (dl s t') pos k else dl s t'.
Proof.
  intros H. unfold inserted. destruct (dtype_eqb t t') eqn:E; [|reflexivity].
  assert (t = t') by (destruct t, t'; cbn in E; congruence). subst t'.
  rewrite !get_ids_firstn by lia. unfold insd. cbn [skipn]. f_equal. f_equal.
  rewrite firstn_all2; [reflexivity|]. rewrite skipn_length, dl_length. lia.
Qed.
Lemma insd_none pos k d : pos <= d -> insd (repeat None d) pos k = repeat None (d + k).
Proof.
  intros H. unfold insd. replace d with (pos + (d - pos)) at 1 2 by lia.
  rewrite repeat_app, firstn_app, skipn_app, repeat_length, Nat.sub_diag, firstn_all2, skipn_all2 by (rewrite repeat_length; lia).
  cbn [firstn skipn app]. rewrite app_nil_r, <- !repeat_app. f_equal. lia.
Qed.

(** the lists of names after the change *)
Definition grown (s : space) (t : dtype) (k : nat) : space :=
  match t with Param => with_dims s (nparam s + k) (n_in s) (n_out s)
             | In => with_dims s (nparam s) (n_in s + k) (n_out s) | Out => with_dims s (nparam s) (n_in s) (n_out s + k) end.
Lemma grown_ok s t pos k : okids s -> pos <= dim s t ->
  let s' := grown (with_ids s (match ids s with None => None | Some _ => Some (inserted s t Param pos k ++ inserted s t In pos k ++ inserted s t Out pos k) end)) t k in
  okids s' /\ forall t', dl s' t' = if dtype_eqb t t' then insd (dl s t') pos k else dl s t'.
Proof.
  intros O H. rewrite !inserted_eq by exact H. intros s'.
  assert (D : forall t', dim s' t' = dim s t' + if dtype_eqb t t' then k else 0)
    by (intros t'; unfold s'; destruct t, t'; cbn; lia).
  destruct (ids s) as [l|] eqn:I.
  - assert (X : dl s' Param = (if dtype_eqb t Param then insd (dl s Param) pos k else dl s Param) /\ dl s' In = (if dtype_eqb t In then insd (dl s In) pos k else dl s In) /\
      dl s' Out = (if dtype_eqb t Out then insd (dl s Out) pos k else dl s Out) /\ okids s').
    { apply dl_of_idl; [unfold s'; destruct t; reflexivity|rewrite (D Param : nparam s' = _)|rewrite (D In : n_in s' = _)|rewrite (D Out : n_out s' = _)].
      all: destruct t; cbn [dtype_eqb]; rewrite ?insd_length by (rewrite dl_length; exact H); rewrite dl_length; cbn; lia. }
    destruct X as (A & B & C & E). split; [exact E|]. intros []; auto.
  - split; [apply okids_None; unfold s'; destruct t; reflexivity|]. intros t'. rewrite !dl_None; [|exact I|unfold s'; destruct t; reflexivity].
    rewrite D. destruct (dtype_eqb t t') eqn:E.
    + assert (t = t') by (destruct t, t'; cbn in E; congruence). subst t'. rewrite insd_none; auto.
    + now rewrite Nat.add_0_r.
Qed.

Lemma reset_facts s1 t : t <> Param -> okids s1 -> dl (reset s1 t) Param = dl s1 Param /\ (forall t', dl (reset s1 t) t' = dl s1 t') /\ okids (reset s1 t) /\
  tuple_id (reset s1 t) t = None /\ nested (reset s1 t) t = None /\
  (forall t', t' <> t -> tuple_id (reset s1 t) t' = tuple_id s1 t' /\ nested (reset s1 t) t' = nested s1 t').
Proof.
  intros Ht O'. unfold reset. destruct t; [congruence| |].
  - destruct (is_some (tuple_id s1 In) || is_some (nested s1 In)) eqn:E.
    + split; [reflexivity|]. split; [intros []; reflexivity|]. split; [exact O'|]. split; [reflexivity|]. split; [reflexivity|]. intros [] Hn; try (exfalso; apply Hn; reflexivity); split; reflexivity.
    + apply orb_false_iff in E as [E1 E2]. cbn in E1, E2 |- *. destruct (id0 s1) eqn:I; [discriminate|]. destruct (nest0 s1) eqn:N; [discriminate|]. auto 10.
  - destruct (is_some (tuple_id s1 Out) || is_some (nested s1 Out)) eqn:E.
    + split; [reflexivity|]. split; [intros []; reflexivity|]. split; [exact O'|]. split; [reflexivity|]. split; [reflexivity|]. intros [] Hn; try (exfalso; apply Hn; reflexivity); split; reflexivity.
    + apply orb_false_iff in E as [E1 E2]. cbn in E1, E2 |- *. destruct (id1 s1) eqn:I; [discriminate|]. destruct (nest1 s1) eqn:N; [discriminate|]. auto 10.
Qed.
Lemma insert_tuple_ok s t pos k : t <> Param -> wf s -> pos <= dim s t ->
  exists s', insert_dims s t pos k = Some s' /\ wf s' /\ dl s' Param = dl s Param /\
    tup s' t = T None (insd (dl s t) pos k) None /\ (forall t', t' <> t -> tup s' t' = tup s t').
Proof.
  intros Ht W H. destruct k as [|k'].
  - exists (reset s t). split; [destruct s; reflexivity|]. destruct (reset_ok s t Ht W) as (A & B & C & D & _).
    assert (E : insd (dl s t) pos 0 = dl s t) by (unfold insd; cbn; apply firstn_skipn). rewrite E. auto.
  - set (k := S k') in *. pose proof (proj1 (wf_eq s) W) as (O & N0 & N1).
    destruct (grown_ok s t pos k O H) as (O' & D). set (s1 := grown _ _ _) in O', D.
    exists (reset s1 t). split.
    { unfold s1. destruct s. destruct t; [congruence| |]; cbn [insert_dims]; unfold check_range; rewrite Nat.add_0_r, (proj2 (Nat.leb_le _ _) H); reflexivity. }
    assert (DP : dl s1 Param = dl s Param) by (rewrite D; destruct t; [congruence|reflexivity|reflexivity]).
    pose proof (reset_facts s1 t Ht O') as Hd.
    destruct Hd as (HP & HD & HO & HI & HN & HX).
    assert (R : forall t', dim (reset s1 t) t' = dim s1 t') by (intros t'; rewrite <- (dl_length (reset s1 t)), HD, dl_length; reflexivity).
    split; [|split; [congruence|split]].
    + apply wf_eq. split; [exact HO|]. rewrite HP, DP. pose proof (R In) as RI. pose proof (R Out) as RO. cbn [dim] in RI, RO. rewrite RI, RO.
      destruct t; [congruence| |]; cbn [nested] in HN; rewrite HN.
      * destruct (HX Out) as [_ E]; [congruence|]. cbn [nested] in E. rewrite E. split; [exact I|]. exact N1.
      * destruct (HX In) as [_ E]; [congruence|]. cbn [nested] in E. rewrite E. split; [exact N0|]. exact I.
    + rewrite tup_eq, HI, HN, HD, D. destruct t; reflexivity.
    + intros t' Hn. rewrite !tup_eq. destruct (HX t' Hn) as [E1 E2]. rewrite E1, E2, HD, D.
      unfold s1. destruct t, t'; try (exfalso; congruence); reflexivity.
Qed.

Lemma insert_params_ok pos k s : wf s -> pos <= nparam s -> exists s', insert_dims s Param pos k = Some s' /\ wf s' /\ dl s' Param = insd (dl s Param) pos k /\
    tup_in s' = tup_in s /\ tup_out s' = tup_out s.
Proof.
  revert s. refine (space_ind' _ _). intros p i o a b n0 n1 l H0 H1 W Hp. set (s := mksp p i o a b n0 n1 l) in *.
  destruct k as [|k'].
  { exists s. split; [reflexivity|]. split; [exact W|]. split; [unfold insd; cbn; symmetry; apply firstn_skipn|auto]. }
  set (k := S k') in *.
  pose proof (proj1 (wf_eq s) W) as (O & N0 & N1). cbn [nest0 nest1 n_in n_out s] in N0, N1.
  assert (X : forall n j (Hn : match n with Some n => wf n -> pos <= nparam n -> exists s', insert_dims n Param pos k = Some s' /\ wf s' /\ dl s' Param = insd (dl n Param) pos k /\
      tup_in s' = tup_in n /\ tup_out s' = tup_out n | None => True end), nestok n j (dl s Param) ->
     exists x, match n with None => Some None | Some n => match insert_dims n Param pos k with Some n' => Some (Some n') | None => None end end = Some x /\
       nestok x j (insd (dl s Param) pos k) /\ inn x = inn n).
  { intros [n|] j Hx N; [|exists None; auto]. destruct N as (W' & K & P).
    assert (Hn : pos <= nparam n). { pose proof (dl_length n Param) as L. rewrite P, dl_length in L. cbn in L. cbn in Hp. lia. }
    destruct (Hx W' Hn) as (n' & E & Wn & Pn & T1 & T2). exists (Some n'). rewrite E. split; [reflexivity|]. split.
    - split; [exact Wn|]. split; [|rewrite Pn, P; reflexivity].
      rewrite !tup_in_eq in T1. rewrite !tup_out_eq in T2. injection T1 as _ T1 _. injection T2 as _ T2 _.
      apply (f_equal (@length _)) in T1, T2. rewrite !dl_length in T1, T2. cbn [dim] in T1, T2. lia.
    - cbn [inn]. rewrite !tuples_eq, T1, T2. reflexivity. }
  destruct (X n0 i H0 N0) as (x0 & E0 & K0 & I0). destruct (X n1 o H1 N1) as (x1 & E1 & K1 & I1).
  destruct (grown_ok s Param pos k O Hp) as (O' & D). set (s1 := grown _ _ _) in O', D.
  exists (with_nested (with_nested s1 In x0) Out x1). split.
  { unfold s1, s. cbn [insert_dims]. change (Nat.eqb k 0) with false. cbv iota. change (mksp p i o a b n0 n1 l) with s. unfold check_range.
    rewrite Nat.add_0_r. rewrite (proj2 (Nat.leb_le pos (dim s Param)) Hp). cbn [nest0 nest1 s]. rewrite E0, E1. reflexivity. }
  set (r := with_nested (with_nested s1 In x0) Out x1).
  assert (D' : forall t, dl r t = dl s1 t) by (intros t; apply dl_with; destruct t; reflexivity).
  pose proof (D Param) as DP. pose proof (D In) as DI. pose proof (D Out) as DO. cbn [dtype_eqb] in DP, DI, DO.
  split. { apply wf_eq. split; [exact O'|]. rewrite D', DP. unfold r. cbn [nest0 nest1 n_in n_out with_nested]. split; [exact K0|exact K1]. }
  split; [now rewrite D', DP|]. split.
  - rewrite !tup_in_eq, D', DI. unfold r. cbn [id0 nest0 with_nested]. rewrite I0. reflexivity.
  - rewrite !tup_out_eq, D', DO. unfold r. cbn [id1 nest1 with_nested]. rewrite I1. reflexivity.
Qed.
Lemma insert_range s t pos k : k <> 0 -> dim s t < pos -> insert_dims s t pos k = None.
Proof.
  intros Hk H. destruct s. cbn [insert_dims]. destruct (Nat.eqb_spec k 0); [lia|]. unfold check_range.
  rewrite (proj2 (Nat.leb_gt _ _)) by lia. reflexivity.
Qed.

Lemma add_tuple_ok s t k : t <> Param -> wf s ->
  exists s', add_dims s t k = Some s' /\ wf s' /\ dl s' Param = dl s Param /\
    tup s' t = T None (dl s t ++ repeat None k) None /\ (forall t', t' <> t -> tup s' t' = tup s t').
Proof.
  intros Ht W. destruct (reset_ok s t Ht W) as (Wr & P & Tt & To & Dm). set (r := reset s t) in *.
  pose proof (proj1 (wf_eq r) Wr) as (O & N0 & N1).
  assert (Tt' := Tt). rewrite tup_eq in Tt'. injection Tt' as I1 I2 I3.
  destruct (extend_ok r (nparam r) (n_in r + match t with In => k | _ => 0 end) (n_out r + match t with Out => k | _ => 0 end) O) as
    (s' & Es & OK & D1 & D2 & D3 & D4 & D5 & D6 & D7 & DP & DI & DO); [lia|lia|lia|].
  exists s'. split.
  { destruct s. destruct t; [congruence| |]; cbn [add_dims]; fold r; rewrite ?Nat.add_0_r in Es; exact Es. }
  rewrite Nat.sub_diag in DP. cbn [repeat] in DP. rewrite app_nil_r in DP.
  replace (n_in r + match t with In => k | _ => 0 end - n_in r) with (match t with In => k | _ => 0 end) in DI by lia.
  replace (n_out r + match t with Out => k | _ => 0 end - n_out r) with (match t with Out => k | _ => 0 end) in DO by lia.
  split; [|split; [congruence|split]].
  - apply wf_eq. split; [exact OK|]. rewrite DP, D6, D7, D2, D3. destruct t; [congruence| |]; cbn [nested] in I3.
    + destruct (nest0 r); [discriminate|]. rewrite Nat.add_0_r. split; [exact I|exact N1].
    + destruct (nest1 r); [discriminate|]. rewrite Nat.add_0_r. split; [exact N0|exact I].
  - rewrite tup_eq. destruct t; [congruence| |]; cbn [tuple_id nested] in *; rewrite ?D4, ?D5, ?D6, ?D7, I1, I3, ?DI, ?DO; f_equal; f_equal; exact I2.
  - intros t' Hn. rewrite <- To by exact Hn. rewrite !tup_eq. destruct t, t'; try congruence; cbn [tuple_id nested repeat] in *;
      rewrite ?D4, ?D5, ?D6, ?D7, ?DP, ?DI, ?DO, ?app_nil_r; reflexivity.
Qed.

Lemma equal_ids_ok s1 s2 : has_equal_ids s1 s2 = true <->
  same (tup_in s1) (tup_in s2) /\ same (tup_out s1) (tup_out s2) /\ dl s1 In = dl s2 In /\ dl s1 Out = dl s2 Out.
Proof. unfold has_equal_ids. rewrite andb_true_iff, !match_ok. cbn [tup]. tauto. Qed.

(** ** dimension maps *)
Lemma dm_range_length dp ds sp ss sg : forall n i m, length (dm_range m dp ds sp ss n i sg) = length m.
Proof. induction n as [|n IH]; intros i m; cbn; [reflexivity|]. now rewrite IH, lset_length. Qed.
Lemma dm_range_at dp ds sp ss sg : ds <> 0 -> forall n i m, (n <> 0 -> dp + ds * (i + n - 1) < length m - 1) ->
  (forall j, i <= j < i + n -> nth (1 + dp + ds * j) (dm_range m dp ds sp ss n i sg) (0, 0%Z) = (1 + sp + ss * j, sg)) /\ (forall q, (forall j, i <= j < i + n -> q <> 1 + dp + ds * j) -> nth q (dm_range m dp ds sp ss n i sg) (0, 0%Z) = nth q m (0, 0%Z)).
Proof.
  intros Hd. induction n as [|n IH]; intros i m H.
  - split; [lia|reflexivity].
  - assert (Hi : 1 + dp + ds * i < length m). { specialize (H ltac:(lia)). assert (ds * i <= ds * (i + S n - 1)) by (apply Nat.mul_le_mono_l; lia). lia. }
    cbn [dm_range]. destruct (IH (S i) (lset m (1 + dp + ds * i) (1 + sp + ss * i, sg))) as [A B].
    { intros Hn. rewrite lset_length. replace (S i + n - 1) with (i + S n - 1) by lia. apply H. lia. }
    split.
    + intros j Hj. destruct (Nat.eq_dec j i) as [->|E].
      * rewrite B, nth_lset by (try exact Hi; intros j Hj'; assert (ds * (S i) <= ds * j) by (apply Nat.mul_le_mono_l; lia); nia). now rewrite Nat.eqb_refl.
      * apply A. lia.
    + intros q Hq. rewrite B by (intros j Hj; apply Hq; lia). rewrite nth_lset by exact Hi.
      destruct (Nat.eqb_spec q (1 + dp + ds * i)) as [E|E]; [|reflexivity]. exfalso. apply (Hq i); [lia|exact E].
Qed.
Lemma dm_range_from0 m dp ds sp ss n sg : ds <> 0 -> (n <> 0 -> dp + ds * (n - 1) < length m - 1) ->
  (forall j, j < n -> nth (1 + dp + ds * j) (dm_range m dp ds sp ss n 0 sg) (0, 0%Z) = (1 + sp + ss * j, sg)) /\
  (forall q, (forall j, j < n -> q <> 1 + dp + ds * j) -> nth q (dm_range m dp ds sp ss n 0 sg) (0, 0%Z) = nth q m (0, 0%Z)).
Proof.
  intros Hd H. destruct (dm_range_at dp ds sp ss sg Hd n 0 m H) as [A B]. split.
  - intros j Hj. apply A. lia.
  - intros q Hq. apply B. intros j Hj. apply Hq. lia.
Qed.
