(** The names of the dimensions of a space under the basic operations. *)
From Coq Require Import ZArith List Bool Lia Arith.
From Verif Require Import SpaceModel SpaceSpec.
Import ListNotations.

Definition okids (s : space) : Prop := n_id s <= dim_all s.
(** the names with the missing ones filled in *)
Definition full (s : space) : list (option Z) := idl s ++ repeat None (dim_all s - n_id s).

Lemma nth_full s j : nth j (full s) None = nth j (idl s) None.
Proof.
  unfold full. destruct (Nat.lt_ge_cases j (length (idl s))) as [H|H].
  - now rewrite app_nth1.
  - rewrite app_nth2 by exact H. rewrite nth_repeat. now rewrite nth_overflow.
Qed.
Lemma full_length s : okids s -> length (full s) = dim_all s.
Proof. unfold okids, full, n_id. intros. rewrite app_length, repeat_length. lia. Qed.
Lemma dl_length s t : length (dl s t) = dim s t.
Proof. unfold dl. now rewrite map_length, seq_length. Qed.
Lemma nth_map_seq {A} (f : nat -> A) n j d : j < n -> nth j (map f (seq 0 n)) d = f j.
Proof. intros H. rewrite (nth_indep _ d (f 0)) by (rewrite map_length, seq_length; lia). rewrite map_nth. now rewrite seq_nth by lia. Qed.
Lemma get_id_in s t j : j < dim s t -> get_id s t j = nth (offset s t + j) (idl s) None.
Proof. intros H. unfold get_id, check_range. rewrite (proj2 (Nat.leb_le _ _)) by lia. reflexivity. Qed.
Lemma get_id_out s t j : dim s t <= j -> get_id s t j = None.
Proof. intros H. unfold get_id, check_range. rewrite (proj2 (Nat.leb_gt _ _)) by lia. reflexivity. Qed.
Lemma nth_dl s t j : nth j (dl s t) None = get_id s t j.
Proof.
  destruct (Nat.lt_ge_cases j (dim s t)) as [H|H].
  - unfold dl. now rewrite nth_map_seq by exact H.
  - rewrite get_id_out by exact H. apply nth_overflow. now rewrite dl_length.
Qed.
Lemma get_ids_dl s t : get_ids s t 0 (dim s t) = dl s t.
Proof. reflexivity. Qed.
Lemma nth_ext_opt (l l' : list (option Z)) : length l = length l' ->
  (forall j, j < length l -> nth j l None = nth j l' None) -> l = l'.
Proof. intros. apply (nth_ext _ _ None None); auto. Qed.
Lemma get_ids_firstn s t first n : first + n <= dim s t -> get_ids s t first n = firstn n (skipn first (dl s t)).
Proof.
  intros H. apply nth_ext_opt.
  - unfold get_ids. rewrite map_length, seq_length, firstn_length, skipn_length, dl_length. lia.
  - unfold get_ids. rewrite map_length, seq_length. intros j Hj.
    rewrite nth_map_seq by exact Hj. rewrite <- nth_dl.
    rewrite <- (firstn_skipn first (dl s t)) at 1. rewrite app_nth2; rewrite firstn_length, dl_length, Nat.min_l by lia; [|lia].
    replace (first + j - first) with j by lia.
    rewrite <- (firstn_skipn n (skipn first (dl s t))) at 1. rewrite app_nth1; [reflexivity|].
    rewrite firstn_length, skipn_length, dl_length. lia.
Qed.

Lemma full_dl s : okids s -> full s = dl s Param ++ dl s In ++ dl s Out.
Proof.
  intros H. pose proof (dl_length s Param) as LP. pose proof (dl_length s In) as LI. pose proof (dl_length s Out) as LO.
  cbn [dim] in *. apply nth_ext_opt.
  - rewrite full_length by exact H. rewrite !app_length, LP, LI, LO. unfold dim_all. lia.
  - rewrite full_length by exact H. intros j Hj. rewrite nth_full.
    destruct (Nat.lt_ge_cases j (nparam s)) as [H1|H1].
    + rewrite app_nth1 by lia. rewrite nth_dl, get_id_in by exact H1. reflexivity.
    + rewrite app_nth2 by lia. rewrite LP. destruct (Nat.lt_ge_cases (j - nparam s) (n_in s)) as [H2|H2].
      * rewrite app_nth1 by lia. rewrite nth_dl, get_id_in by exact H2. cbn [offset]. f_equal. lia.
      * rewrite app_nth2 by lia. rewrite LI, nth_dl. unfold dim_all in Hj. rewrite get_id_in by (cbn [dim]; lia). cbn [offset]. f_equal. lia.
Qed.
Lemma dl_of_full s (P I O : list (option Z)) :
  full s = P ++ I ++ O -> length P = nparam s -> length I = n_in s -> length O = n_out s ->
  dl s Param = P /\ dl s In = I /\ dl s Out = O.
Proof.
  intros F HP HI HO. repeat split; apply nth_ext_opt; rewrite dl_length; cbn [dim]; auto; intros j Hj;
    rewrite nth_dl, get_id_in by exact Hj; rewrite <- nth_full, F; cbn [offset].
  - rewrite app_nth1 by lia. reflexivity.
  - rewrite app_nth2 by lia. rewrite app_nth1 by lia. f_equal. lia.
  - rewrite app_nth2 by lia. rewrite app_nth2 by lia. f_equal. lia.
Qed.
Lemma dl_of_idl s (P I O : list (option Z)) :
  ids s = Some (P ++ I ++ O) -> length P = nparam s -> length I = n_in s -> length O = n_out s ->
  dl s Param = P /\ dl s In = I /\ dl s Out = O /\ okids s.
Proof.
  intros F HP HI HO.
  assert (L : n_id s = dim_all s). { unfold n_id, idl, dim_all. rewrite F, !app_length. lia. }
  assert (E : full s = P ++ I ++ O).
  { unfold full. rewrite L, Nat.sub_diag. cbn. rewrite app_nil_r. unfold idl. now rewrite F. }
  destruct (dl_of_full _ _ _ _ E HP HI HO) as (A & B & C). repeat split; auto. unfold okids. lia.
Qed.
Lemma dl_None s t : ids s = None -> dl s t = repeat None (dim s t).
Proof.
  intros H. apply nth_ext_opt; rewrite dl_length; [now rewrite repeat_length|]. intros j Hj.
  rewrite nth_dl, get_id_in by exact Hj. unfold idl. rewrite H, nth_repeat. now destruct (offset s t + j).
Qed.
Lemma okids_None s : ids s = None -> okids s.
Proof. unfold okids, n_id, idl. intros ->. cbn. lia. Qed.

(** ** update *)
Lemma update_length {A} (l : list A) i a : i < length l -> length (update l i a) = length l.
Proof. intros H. unfold update. rewrite app_length. cbn [length]. rewrite firstn_length, skipn_length. lia. Qed.
Lemma nth_update {A} (l : list A) i a j d : i < length l -> nth j (update l i a) d = if Nat.eqb j i then a else nth j l d.
Proof.
  intros H. unfold update. assert (L : length (firstn i l) = i) by (rewrite firstn_length; lia).
  destruct (Nat.eqb_spec j i) as [->|N].
  - rewrite app_nth2 by lia. now rewrite L, Nat.sub_diag.
  - destruct (Nat.lt_ge_cases j i) as [H1|H1].
    + rewrite app_nth1 by lia. rewrite <- (firstn_skipn i l) at 2. rewrite app_nth1 by lia. reflexivity.
    + rewrite app_nth2 by lia. rewrite L. replace (j - i) with (S (j - i - 1)) by lia. cbn [nth].
      rewrite <- (firstn_skipn (S i) l) at 2. rewrite app_nth2; rewrite firstn_length, Nat.min_l by lia; [|lia]. f_equal. lia.
Qed.

(** everything but the names of the dimensions *)
Definition frame (s s' : space) : Prop := s' = with_ids s (ids s').
Lemma frame_refl s : frame s s.
Proof. unfold frame, with_ids. now destruct s. Qed.
Lemma frame_trans a b c : frame a b -> frame b c -> frame a c.
Proof. unfold frame. intros -> ->. reflexivity. Qed.
Lemma frame_with s l : frame s (with_ids s l).
Proof. reflexivity. Qed.
Lemma frame_dim s s' t : frame s s' -> dim s' t = dim s t.
Proof. intros ->. now destruct t. Qed.
Lemma frame_all s s' : frame s s' ->
  nparam s' = nparam s /\ n_in s' = n_in s /\ n_out s' = n_out s /\ id0 s' = id0 s /\ id1 s' = id1 s /\ nest0 s' = nest0 s /\ nest1 s' = nest1 s.
Proof. intros ->. repeat split. Qed.
Lemma frame_offset s s' t : frame s s' -> offset s' t = offset s t.
Proof. intros ->. now destruct t. Qed.

Lemma idl_extend s : okids s -> idl (extend_ids s) = full s /\ frame s (extend_ids s).
Proof.
  intros H. unfold extend_ids. destruct (Nat.leb_spec (dim_all s) (n_id s)) as [L|L].
  - split; [|apply frame_refl]. unfold full. replace (dim_all s - n_id s) with 0 by lia. cbn. now rewrite app_nil_r.
  - split; [reflexivity|apply frame_with].
Qed.

(** set_id changes one name *)
Lemma set_id_ok s t pos id : okids s -> pos < dim s t ->
  exists s', set_id s t pos id = Some s' /\ frame s s' /\ okids s' /\
    (forall t' j, get_id s' t' j = if dtype_eqb t t' && Nat.eqb j pos then id else get_id s t' j).
Proof.
  intros H Hp. unfold set_id, check_range. rewrite (proj2 (Nat.leb_le _ _)) by lia. cbv zeta.
  assert (G : offset s t + pos < dim_all s).
  { unfold dim_all. destruct t; cbn in *; lia. }
  assert (KEY : forall l, length l <= dim_all s -> offset s t + pos < length l -> (forall j, nth j l None = nth j (idl s) None) ->
    let s' := with_ids s (Some (update l (offset s t + pos) id)) in
    frame s s' /\ okids s' /\ (forall t' j, get_id s' t' j = if dtype_eqb t t' && Nat.eqb j pos then id else get_id s t' j)).
  { intros l L1 L2 E s'. split; [apply frame_with|]. split.
    - unfold okids, n_id. cbn. rewrite update_length by exact L2. exact L1.
    - intros t' j. unfold get_id, check_range. change (dim s' t') with (dim s' t'). rewrite (frame_dim s s' t' (frame_with _ _)).
      destruct (Nat.leb_spec (j + 1) (dim s t')) as [B|B].
      + rewrite (frame_offset s s' t' (frame_with _ _)). cbn [idl ids with_ids s']. rewrite nth_update by exact L2. rewrite E.
        destruct (Nat.eqb_spec (offset s t' + j) (offset s t + pos)) as [E2|E2].
        * replace (dtype_eqb t t' && Nat.eqb j pos) with true; [reflexivity|]. symmetry.
          destruct t, t'; cbn in *; try lia; apply Nat.eqb_eq; lia.
        * replace (dtype_eqb t t' && Nat.eqb j pos) with false; [reflexivity|]. symmetry.
          destruct (dtype_eqb t t') eqn:D; [|reflexivity]. cbn. apply Nat.eqb_neq. intros ->. apply E2. f_equal. destruct t, t'; try discriminate; reflexivity.
      + destruct (dtype_eqb t t' && Nat.eqb j pos) eqn:D; [|reflexivity].
        apply andb_true_iff in D as [D1 D2]. apply Nat.eqb_eq in D2. subst j. exfalso. destruct t, t'; try discriminate; cbn in *; lia. }
  destruct (Nat.leb_spec (n_id s) (offset s t + pos)) as [B|B].
  - destruct id as [z|].
    + destruct (idl_extend s H) as [E F]. eexists. split; [reflexivity|].
      rewrite E. rewrite F. change (with_ids (with_ids s (ids (extend_ids s))) ?l) with (with_ids s l).
      apply KEY; [rewrite full_length by exact H; lia|rewrite full_length by exact H; exact G|intros; apply nth_full].
    + exists s. split; [reflexivity|]. split; [apply frame_refl|]. split; [exact H|].
      intros t' j. destruct (dtype_eqb t t' && Nat.eqb j pos) eqn:D; [|reflexivity].
      apply andb_true_iff in D as [D1 D2]. apply Nat.eqb_eq in D2. subst j.
      assert (t' = t) by (destruct t, t'; try discriminate; reflexivity). subst t'.
      rewrite get_id_in by exact Hp. apply nth_overflow. exact B.
  - eexists. split; [reflexivity|]. apply KEY; [exact H|exact B|reflexivity].
Qed.

(** set_ids changes a block of names *)
Lemma set_ids_ok l : forall s t first, okids s -> first + length l <= dim s t ->
  exists s', set_ids (Some s) t first l = Some s' /\ frame s s' /\ okids s' /\
    (forall t' j, get_id s' t' j =
       if dtype_eqb t t' && (Nat.leb first j && Nat.ltb j (first + length l)) then nth (j - first) l None else get_id s t' j).
Proof.
  induction l as [|id l IH]; intros s t first H L; cbn [set_ids length] in *.
  - exists s. split; [reflexivity|]. split; [apply frame_refl|]. split; [exact H|]. intros t' j.
    destruct (dtype_eqb t t'); [|reflexivity]. destruct (Nat.leb_spec first j); destruct (Nat.ltb_spec j (first + 0)); cbn; try reflexivity; lia.
  - destruct (set_id_ok s t first id H ltac:(lia)) as (s1 & E1 & F1 & O1 & G1). rewrite E1.
    destruct (IH s1 t (S first) O1) as (s2 & E2 & F2 & O2 & G2). { rewrite (frame_dim _ _ _ F1). lia. }
    exists s2. split; [exact E2|]. split; [exact (frame_trans _ _ _ F1 F2)|]. split; [exact O2|].
    intros t' j. rewrite G2, G1. destruct (dtype_eqb t t'); [|reflexivity]. cbn [andb].
    destruct (Nat.leb_spec (S first) j); destruct (Nat.ltb_spec j (S first + length l)); destruct (Nat.leb_spec first j);
      destruct (Nat.ltb_spec j (first + S (length l))); destruct (Nat.eqb_spec j first); cbn [andb]; try reflexivity; try lia.
    + replace (j - first) with (S (j - S first)) by lia. reflexivity.
    + subst. rewrite Nat.sub_diag. reflexivity.
Qed.

(** copy_ids copies the names that are set *)
Definition or_else (a b : option Z) : option Z := match a with Some _ => a | None => b end.
Lemma copy_ids_none dt off src st : copy_ids None dt off src st = None.
Proof. unfold copy_ids. induction (seq 0 (dim src st)); cbn; auto. Qed.
Lemma copy_ids_ok s dt off src st : okids s -> off + dim src st <= dim s dt ->
  exists s', copy_ids (Some s) dt off src st = Some s' /\ frame s s' /\ okids s' /\
    (forall t' j, get_id s' t' j =
       if dtype_eqb dt t' && (Nat.leb off j && Nat.ltb j (off + dim src st)) then or_else (get_id src st (j - off)) (get_id s t' j) else get_id s t' j).
Proof.
  intros H L. unfold copy_ids. remember (dim src st) as n eqn:En. assert (Hn : n <= dim src st) by lia. clear En. revert Hn.
  induction n as [|n IH]; intros Hn.
  - exists s. cbn [seq fold_left]. split; [reflexivity|]. split; [apply frame_refl|]. split; [exact H|]. intros t' j.
    destruct (dtype_eqb dt t'); [|reflexivity]. destruct (Nat.leb_spec off j); destruct (Nat.ltb_spec j (off + 0)); cbn [andb]; try reflexivity; lia.
  - destruct (IH ltac:(lia) ltac:(lia)) as (s1 & E1 & F1 & O1 & G1).
    rewrite seq_S, fold_left_app, E1. cbn [fold_left Nat.add].
    assert (X : forall t' j, (if dtype_eqb dt t' && (Nat.leb off j && Nat.ltb j (off + S n)) then or_else (get_id src st (j - off)) (get_id s t' j) else get_id s t' j) =
      if dtype_eqb dt t' && Nat.eqb j (off + n) then or_else (get_id src st n) (get_id s t' j) else get_id s1 t' j).
    { intros t' j. rewrite G1. destruct (dtype_eqb dt t'); [|reflexivity]. cbn [andb].
      destruct (Nat.leb_spec off j); destruct (Nat.ltb_spec j (off + S n)); destruct (Nat.ltb_spec j (off + n)); destruct (Nat.eqb_spec j (off + n)); cbn [andb]; try reflexivity; try lia.
      subst j. f_equal. f_equal. lia. }
    destruct (get_id src st n) as [z|] eqn:Eg.
    + destruct (set_id_ok s1 dt (off + n) (Some z) O1) as (s2 & E2 & F2 & O2 & G2). { rewrite (frame_dim _ _ _ F1). lia. }
      exists s2. split; [exact E2|]. split; [exact (frame_trans _ _ _ F1 F2)|]. split; [exact O2|].
      intros t' j. rewrite X, G2. cbn [or_else]. reflexivity.
    + exists s1. split; [reflexivity|]. split; [exact F1|]. split; [exact O1|].
      intros t' j. rewrite X. destruct (dtype_eqb dt t' && Nat.eqb j (off + n)) eqn:D; [|reflexivity].
      cbn [or_else]. rewrite G1. apply andb_true_iff in D as [D1 D2]. apply Nat.eqb_eq in D2. subst j. rewrite D1. cbn [andb].
      destruct (Nat.ltb_spec (off + n) (off + n)); [lia|]. now rewrite andb_false_r.
Qed.

(** ** the names of a list of dimensions *)
Lemma dl_ext s s' t : dim s t = dim s' t -> (forall j, j < dim s t -> get_id s t j = get_id s' t j) -> dl s t = dl s' t.
Proof.
  intros D G. apply nth_ext_opt; rewrite !dl_length; [exact D|]. intros j Hj. rewrite !nth_dl. auto.
Qed.
Lemma dl_is s t l : dim s t = length l -> (forall j, j < dim s t -> get_id s t j = nth j l None) -> dl s t = l.
Proof. intros D G. apply nth_ext_opt; rewrite dl_length; [exact D|]. intros j Hj. rewrite nth_dl. auto. Qed.

(** ** moving names *)
Lemma move_down_ok l a b k : a <= b -> b + k <= length l ->
  length (move_down l a b k) = length l /\
  forall j, nth j (move_down l a b k) None = if Nat.leb a j && Nat.ltb j (a + k) then nth (b + (j - a)) l None else nth j l None.
Proof.
  intros Hab. induction k as [|k IH]; intros Hk.
  - split; [reflexivity|]. intros j. destruct (Nat.leb_spec a j); destruct (Nat.ltb_spec j (a + 0)); cbn; try reflexivity; lia.
  - destruct (IH ltac:(lia)) as [L N]. unfold move_down in *. rewrite seq_S, fold_left_app. cbn [fold_left Nat.add].
    split; [rewrite update_length; lia|]. intros j. rewrite nth_update by lia. rewrite !N.
    destruct (Nat.eqb_spec j (a + k)) as [->|Nj].
    + destruct (Nat.leb_spec a (a + k)); [|lia]. destruct (Nat.ltb_spec (a + k) (a + S k)); [|lia]. cbn [andb].
      destruct (Nat.leb_spec a (b + k)); destruct (Nat.ltb_spec (b + k) (a + k)); cbn [andb]; try (f_equal; lia); lia.
    + destruct (Nat.leb_spec a j); destruct (Nat.ltb_spec j (a + k)); destruct (Nat.ltb_spec j (a + S k)); cbn [andb]; try reflexivity; lia.
Qed.
