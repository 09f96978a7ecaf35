(** What the basic operations on spaces do to the view of a space. *)
From Coq Require Import ZArith List Bool Lia Arith.
From Verif Require Import SpaceModel SpaceSpec SpaceBase.
Import ListNotations.

Lemma space_ind' (P : space -> Prop) :
  (forall p i o a b n0 n1 l, match n0 with Some n => P n | None => True end -> match n1 with Some n => P n | None => True end ->
    P (mksp p i o a b n0 n1 l)) -> forall s, P s.
Proof.
  intros H. fix IH 1. intros [p i o a b n0 n1 l]. apply H.
  - destruct n0 as [n|]; [apply IH|exact I].
  - destruct n1 as [n|]; [apply IH|exact I].
Qed.
Lemma tuple_ind' (P : tuple -> Prop) :
  (forall i d, P (T i d None)) -> (forall i d a b, P a -> P b -> P (T i d (Some (a, b)))) -> forall t, P t.
Proof.
  intros H0 H1. fix IH 1. intros [i d [[a b]|]].
  - apply H1; apply IH.
  - apply H0.
Qed.

Definition inn (o : option space) : option (tuple * tuple) := match o with Some n => Some (tuples n) | None => None end.
Definition nestok (o : option space) (n : nat) (P : list (option Z)) : Prop :=
  match o with Some x => wf x /\ n_in x + n_out x = n /\ dl x Param = P | None => True end.
Lemma tup_in_eq s : tup_in s = T (id0 s) (dl s In) (inn (nest0 s)).
Proof. destruct s. reflexivity. Qed.
Lemma tup_out_eq s : tup_out s = T (id1 s) (dl s Out) (inn (nest1 s)).
Proof. destruct s. reflexivity. Qed.
Lemma tuples_eq s : tuples s = (tup_in s, tup_out s).
Proof. destruct s. reflexivity. Qed.
Lemma wf_eq s : wf s <-> okids s /\ nestok (nest0 s) (n_in s) (dl s Param) /\ nestok (nest1 s) (n_out s) (dl s Param).
Proof. destruct s as [p i o a b [n0|] [n1|] l]; reflexivity. Qed.
Lemma wf_okids s : wf s -> okids s.
Proof. intros H. apply wf_eq in H. tauto. Qed.

(** ** equality of tuples *)
Lemma opt_eqb_eq a b : opt_eqb a b = true <-> a = b.
Proof. destruct a, b; cbn; try (split; congruence). rewrite Z.eqb_eq. split; congruence. Qed.
Definition same_inner (a b : option (tuple * tuple)) : Prop :=
  match a, b with Some (a1, a2), Some (b1, b2) => same a1 b1 /\ same a2 b2 | None, None => True | _, _ => False end.
Lemma same_eq a b : same a b <-> tid a = tid b /\ length (dims a) = length (dims b) /\ same_inner (inner a) (inner b).
Proof. destruct a as [i d [[a1 a2]|]], b as [i' d' [[b1 b2]|]]; reflexivity. Qed.
Lemma same_refl a : same a a.
Proof. induction a as [i d|i d a b IHa IHb] using tuple_ind'; cbn; auto. Qed.
Lemma same_sym a : forall b, same a b -> same b a.
Proof.
  induction a as [i d|i d a1 a2 IH1 IH2] using tuple_ind'; intros b H; apply same_eq in H as (A & B & C); apply same_eq;
    destruct b as [i' d' [[b1 b2]|]]; cbn in *; try tauto; repeat split; auto; destruct C; auto.
Qed.
Lemma same_consistent a : forall b, same a b -> consistent a -> consistent b -> dims a = dims b -> a = b.
Proof.
  induction a as [i d|i d a1 a2 IH1 IH2] using tuple_ind'; intros b H Ca Cb D; apply same_eq in H as (A & B & C);
    destruct b as [i' d' [[b1 b2]|]]; cbn in *; try tauto; subst; auto.
  destruct Ca as (Ea & Ca1 & Ca2). destruct Cb as (Eb & Cb1 & Cb2). destruct C as [C1 C2].
  rewrite Ea in Eb. assert (L : length (dims a1) = length (dims b1)) by (apply same_eq in C1; tauto).
  apply app_eq_app in Eb. destruct Eb as [l [[E1 E2]|[E1 E2]]]; rewrite E1, app_length in L;
    (destruct l; [|cbn in L; lia]); rewrite app_nil_r in E1; cbn in E2.
  - rewrite (IH1 b1 C1 Ca1 Cb1 E1), (IH2 b2 C2 Ca2 Cb2 (eq_sym E2)). reflexivity.
  - rewrite (IH1 b1 C1 Ca1 Cb1 (eq_sym E1)), (IH2 b2 C2 Ca2 Cb2 E2). reflexivity.
Qed.
Lemma het_same s1 : forall s2, has_equal_tuples s1 s2 = true <-> same (tup_in s1) (tup_in s2) /\ same (tup_out s1) (tup_out s2).
Proof.
  induction s1 as [p i o a b n0 n1 l H0 H1] using space_ind'. intros s2.
  rewrite !tup_in_eq, !tup_out_eq, !same_eq. cbn [tid dims inner]. rewrite !dl_length.
  cbn [has_equal_tuples n_in n_out id0 id1 nest0 nest1 dim]. rewrite !andb_true_iff, !Nat.eqb_eq, !opt_eqb_eq.
  assert (X : forall n m, match n with Some n => forall s2, has_equal_tuples n s2 = true <-> same (tup_in n) (tup_in s2) /\ same (tup_out n) (tup_out s2) | None => True end ->
    (match n, m with Some a, Some b => has_equal_tuples a b | None, None => true | _, _ => false end = true <-> same_inner (inn n) (inn m))).
  { intros [n|] [m|] Hn; cbn; try rewrite !tuples_eq; try tauto; try (split; [discriminate|tauto]). exact (Hn m). }
  rewrite (X n0 (nest0 s2) H0), (X n1 (nest1 s2) H1). tauto.
Qed.
Definition tup (s : space) (t : dtype) : tuple := match t with Param => T None (dl s Param) None | In => tup_in s | Out => tup_out s end.
Lemma tup_eq s t : tup s t = T (tuple_id s t) (dl s t) (inn (nested s t)).
Proof. destruct t; cbn [tup]; [reflexivity|apply tup_in_eq|apply tup_out_eq]. Qed.
Lemma tuple_is_equal_same s1 t1 s2 t2 : tuple_is_equal s1 t1 s2 t2 = true <-> same (tup s1 t1) (tup s2 t2).
Proof.
  rewrite !tup_eq, same_eq. cbn [tid dims inner]. rewrite !dl_length. unfold tuple_is_equal.
  rewrite !andb_true_iff, !Nat.eqb_eq, !opt_eqb_eq.
  assert (X : (match nested s1 t1, nested s2 t2 with Some a, Some b => has_equal_tuples a b | None, None => true | _, _ => false end = true <-> same_inner (inn (nested s1 t1)) (inn (nested s2 t2)))).
  { destruct (nested s1 t1), (nested s2 t2); cbn; try rewrite !tuples_eq; try tauto; try (split; [discriminate|tauto]). exact (het_same _ _). }
  rewrite X. tauto.
Qed.
Lemma match_ok s1 t1 s2 t2 : match_ s1 t1 s2 t2 = true <-> same (tup s1 t1) (tup s2 t2) /\ dl s1 t1 = dl s2 t2.
Proof.
  unfold match_. rewrite <- tuple_is_equal_same. destruct (tuple_is_equal s1 t1 s2 t2) eqn:E; cbn [negb]; [|split; [discriminate|tauto]].
  assert (D : dim s1 t1 = dim s2 t2). { unfold tuple_is_equal in E. rewrite !andb_true_iff, Nat.eqb_eq in E. tauto. }
  assert (X : forallb (fun i => opt_eqb (get_id s1 t1 i) (get_id s2 t2 i)) (seq 0 (dim s1 t1)) = true <-> dl s1 t1 = dl s2 t2).
  { rewrite forallb_forall. split.
    - intros H. apply nth_ext_opt; rewrite !dl_length; [exact D|]. intros j Hj. rewrite !nth_dl. apply opt_eqb_eq, H, in_seq. lia.
    - intros H j _. apply opt_eqb_eq. now rewrite <- !nth_dl, H. }
  destruct (ids s1) eqn:I1; [rewrite X; tauto|]. destruct (ids s2) eqn:I2; [rewrite X; tauto|].
  split; [|auto]. intros _. split; [reflexivity|]. rewrite !dl_None by assumption. now rewrite D.
Qed.
Lemma equal_params_ok s1 s2 : has_equal_params s1 s2 = true <-> dl s1 Param = dl s2 Param.
Proof.
  unfold has_equal_params. rewrite match_ok. cbn [tup]. rewrite same_eq. cbn. split; [tauto|]. intros E. rewrite E. tauto.
Qed.
Lemma dl_nil s t : dim s t = 0 -> dl s t = [].
Proof. unfold dl. now intros ->. Qed.
Lemma is_set_ok s : is_set s = true <-> tup_in s = no_tuple.
Proof.
  rewrite tup_in_eq. unfold is_set, no_tuple, is_none.
  destruct (Nat.eqb_spec (n_in s) 0) as [E|E]; cbn [negb orb].
  - assert (D : dl s In = []) by (apply dl_nil; exact E). rewrite D.
    destruct (nest0 s); cbn [inn]; [split; [discriminate|intros [=]]|].
    destruct (id0 s) as [z|]; [rewrite Z.eqb_eq; split; [congruence|intros [= <-]; reflexivity]|split; [discriminate|intros [=]]].
  - split; [discriminate|]. intros [= _ D _]. exfalso. pose proof (dl_length s In) as L. rewrite D in L. cbn [dim length] in L. lia.
Qed.
Lemma is_params_ok s : is_params s = true <-> tup_in s = no_tuple /\ tup_out s = no_tuple.
Proof.
  rewrite <- is_set_ok, tup_out_eq. unfold is_params, is_set, no_tuple.
  destruct (negb (n_in s =? 0) || match nest0 s with Some _ => true | None => false end); cbn [orb]; [split; [discriminate|intros [E _]; discriminate]|].
  destruct (Nat.eqb_spec (n_out s) 0) as [E|E]; cbn [negb orb].
  - assert (D : dl s Out = []) by (apply dl_nil; exact E). rewrite D.
    destruct (nest1 s); cbn [inn]; [split; [discriminate|intros [_ [=]]]|]. rewrite andb_true_iff.
    unfold is_none at 2. destruct (id1 s) as [z|]; [rewrite Z.eqb_eq; split; [intros [A ->]|intros [A [= <-]]]; auto|split; [intros [_ [=]]|intros [_ [=]]]].
  - split; [discriminate|]. intros [_ [= _ D _]]. exfalso. pose proof (dl_length s Out) as L. rewrite D in L. cbn [dim length] in L. lia.
Qed.

(** ** views from names *)
Lemma dl_with s s' t : dim s t = dim s' t -> offset s t = offset s' t -> idl s = idl s' -> dl s t = dl s' t.
Proof. intros D O I. apply dl_ext; [exact D|]. intros j Hj. rewrite !get_id_in by lia. now rewrite O, I. Qed.

Lemma reset_ok s t : t <> Param -> wf s ->
  wf (reset s t) /\ dl (reset s t) Param = dl s Param /\
  tup (reset s t) t = T None (dl s t) None /\ (forall t', t' <> t -> tup (reset s t) t' = tup s t') /\ (forall t', dim (reset s t) t' = dim s t').
Proof.
  intros Ht W. apply wf_eq in W as (O & N0 & N1). unfold reset. destruct t; [congruence| |].
  - destruct (is_some (tuple_id s In) || is_some (nested s In)) eqn:E.
    + split; [apply wf_eq; cbn; repeat split; [exact O|exact N1]|]. split; [reflexivity|]. split; [cbn [tup]; rewrite tup_in_eq; reflexivity|].
      split; [|intros []; reflexivity]. intros [] H'; try congruence; cbn [tup]; [reflexivity|rewrite !tup_out_eq; reflexivity].
    + apply orb_false_iff in E as [E1 E2]. cbn in E1, E2. destruct (id0 s) eqn:I; [discriminate|]. destruct (nest0 s) eqn:N; [discriminate|].
      split; [apply wf_eq; rewrite N; auto|]. split; [reflexivity|]. split; [cbn [tup]; rewrite tup_in_eq, I, N; reflexivity|]. split; reflexivity.
  - destruct (is_some (tuple_id s Out) || is_some (nested s Out)) eqn:E.
    + split; [apply wf_eq; cbn; repeat split; [exact O|exact N0]|]. split; [reflexivity|]. split; [cbn [tup]; rewrite tup_out_eq; reflexivity|].
      split; [|intros []; reflexivity]. intros [] H'; try congruence; cbn [tup]; [reflexivity|rewrite !tup_in_eq; reflexivity].
    + apply orb_false_iff in E as [E1 E2]. cbn in E1, E2. destruct (id1 s) eqn:I; [discriminate|]. destruct (nest1 s) eqn:N; [discriminate|].
      split; [apply wf_eq; rewrite N; auto|]. split; [reflexivity|]. split; [cbn [tup]; rewrite tup_out_eq, I, N; reflexivity|]. split; reflexivity.
Qed.

(** ** dropping dimensions *)
Definition cut (d : list (option Z)) (first num : nat) : list (option Z) := firstn first d ++ skipn (first + num) d.
Lemma cut_0 d first : cut d first 0 = d.
Proof. unfold cut. rewrite Nat.add_0_r. apply firstn_skipn. Qed.
Lemma cut_length d first num : first + num <= length d -> length (cut d first num) = length d - num.
Proof. intros. unfold cut. rewrite app_length, firstn_length, skipn_length. lia. Qed.
Lemma nth_cut d first num j : first + num <= length d -> nth j (cut d first num) None = nth (if Nat.ltb j first then j else j + num) d None.
Proof.
  intros H. unfold cut. destruct (Nat.ltb_spec j first) as [L|L].
  - rewrite app_nth1 by (rewrite firstn_length; lia). rewrite <- (firstn_skipn first d) at 2. rewrite app_nth1 by (rewrite firstn_length; lia). reflexivity.
  - rewrite app_nth2 by (rewrite firstn_length; lia). rewrite firstn_length, Nat.min_l by lia.
    rewrite <- (firstn_skipn (first + num) d) at 2. rewrite app_nth2 by (rewrite firstn_length; lia). rewrite firstn_length, Nat.min_l by lia. f_equal. lia.
Qed.
Definition cut_of (s : space) (t : dtype) (first num : nat) (t' : dtype) : list (option Z) :=
  if dtype_eqb t t' then cut (dl s t) first num else dl s t'.
Lemma nth_firstn_opt (l : list (option Z)) n j : nth j (firstn n l) None = if Nat.ltb j n then nth j l None else None.
Proof.
  destruct (Nat.ltb_spec j n) as [H|H].
  - destruct (Nat.lt_ge_cases j (length l)) as [H2|H2].
    + rewrite <- (firstn_skipn n l) at 2. rewrite app_nth1; [reflexivity|]. rewrite firstn_length. lia.
    + rewrite !nth_overflow; [reflexivity|lia|rewrite firstn_length; lia].
  - apply nth_overflow. rewrite firstn_length. lia.
Qed.
Lemma drop_ids_ok s t first num : okids s -> first + num <= dim s t ->
  drop_ids s t first num = cut_of s t first num Param ++ cut_of s t first num In ++ cut_of s t first num Out.
Proof.
  intros O H. unfold drop_ids. destruct (idl_extend s O) as [E F]. cbv zeta.
  rewrite E, !(frame_offset _ _ _ F), !(frame_dim _ _ _ F). destruct (frame_all _ _ F) as (_ & -> & -> & _).
  pose proof (full_length s O) as LF. unfold dim_all in LF.
  pose proof (dl_length s Param) as LP. pose proof (dl_length s In) as LI. pose proof (dl_length s Out) as LO. cbn [dim] in LP, LI, LO.
  assert (R : forall j, nth j (full s) None = if Nat.ltb j (nparam s) then nth j (dl s Param) None
     else if Nat.ltb j (nparam s + n_in s) then nth (j - nparam s) (dl s In) None else nth (j - (nparam s + n_in s)) (dl s Out) None).
  { intros j. rewrite (full_dl s O). destruct (Nat.ltb_spec j (nparam s)); [now rewrite app_nth1 by lia|]. rewrite app_nth2, LP by lia.
    destruct (Nat.ltb_spec j (nparam s + n_in s)); [now rewrite app_nth1 by lia|]. rewrite app_nth2, LI by lia. f_equal. lia. }
  assert (CL : forall t', length (cut_of s t first num t') = if dtype_eqb t t' then dim s t' - num else dim s t').
  { intros t'. unfold cut_of. destruct (dtype_eqb t t') eqn:Q; [|apply dl_length].
    assert (t = t') by (destruct t, t'; try discriminate; reflexivity). subst t'. rewrite cut_length by (rewrite dl_length; lia). now rewrite dl_length. }
  assert (CN : forall t' j, nth j (cut_of s t first num t') None =
     if dtype_eqb t t' then nth (if Nat.ltb j first then j else j + num) (dl s t') None else nth j (dl s t') None).
  { intros t' j. unfold cut_of. destruct (dtype_eqb t t') eqn:Q; [|reflexivity].
    assert (t = t') by (destruct t, t'; try discriminate; reflexivity). subst t'. now rewrite nth_cut by (rewrite dl_length; lia). }
  assert (RHS : forall j, j < nparam s + n_in s + n_out s - num ->
      nth j (cut_of s t first num Param ++ cut_of s t first num In ++ cut_of s t first num Out) None =
      nth (if Nat.ltb j (offset s t + first) then j else j + num) (full s) None).
  { intros j Hj. rewrite R. destruct (Nat.lt_ge_cases j (length (cut_of s t first num Param))) as [B1|B1].
    - rewrite app_nth1 by exact B1. rewrite CN. rewrite CL in B1. destruct t; cbn [dtype_eqb offset dim] in *;
        destruct (Nat.ltb_spec j (0 + first)); destruct (Nat.ltb_spec j first); try lia;
        repeat match goal with |- context [Nat.ltb ?a ?b] => destruct (Nat.ltb_spec a b); try lia end; reflexivity.
    - rewrite app_nth2 by exact B1. rewrite !CL in *. destruct (Nat.lt_ge_cases (j - (if dtype_eqb t Param then dim s Param - num else dim s Param)) (length (cut_of s t first num In))) as [B2|B2].
      + rewrite app_nth1 by exact B2. rewrite CN. rewrite CL in B2. destruct t; cbn [dtype_eqb offset dim] in *;
        repeat match goal with |- context [Nat.ltb ?a ?b] => destruct (Nat.ltb_spec a b); try lia end; f_equal; lia.
      + rewrite app_nth2 by exact B2. rewrite CN. rewrite CL in *. destruct t; cbn [dtype_eqb offset dim] in *;
        repeat match goal with |- context [Nat.ltb ?a ?b] => destruct (Nat.ltb_spec a b); try lia end; f_equal; lia. }
  assert (LR : length (cut_of s t first num Param ++ cut_of s t first num In ++ cut_of s t first num Out) = nparam s + n_in s + n_out s - num).
  { rewrite !app_length, !CL. destruct t; cbn [dtype_eqb offset dim] in *; lia. }
  destruct t; cbn [dtype_eqb offset dim] in *.
  - destruct (move_down_ok (full s) (0 + first) (0 + (first + num)) (nparam s - (first + num)) ltac:(lia) ltac:(lia)) as [L1 N1].
    set (l1 := move_down (full s) _ _ _) in *.
    destruct (move_down_ok l1 (nparam s - num) (nparam s) (n_in s) ltac:(lia) ltac:(lia)) as [L2 N2].
    set (l2 := move_down l1 _ _ _) in *.
    destruct (move_down_ok l2 (nparam s + n_in s - num) (nparam s + n_in s) (n_out s) ltac:(lia) ltac:(lia)) as [L3 N3].
    set (l3 := move_down l2 _ _ _) in *.
    apply nth_ext_opt; [rewrite firstn_length, LR; lia|]. rewrite firstn_length. intros j Hj. rewrite RHS by lia.
    rewrite nth_firstn_opt, N3, !N2, !N1. clear - Hj H LF L1 L2 L3.
    repeat match goal with |- context [Nat.ltb ?a ?b] => destruct (Nat.ltb_spec a b); try lia | |- context [Nat.leb ?a ?b] => destruct (Nat.leb_spec a b); try lia end; cbn [andb]; try lia; f_equal; lia.
  - destruct (move_down_ok (full s) (nparam s + first) (nparam s + (first + num)) (n_in s - (first + num)) ltac:(lia) ltac:(lia)) as [L1 N1].
    set (l1 := move_down (full s) _ _ _) in *.
    destruct (move_down_ok l1 (nparam s + n_in s - num) (nparam s + n_in s) (n_out s) ltac:(lia) ltac:(lia)) as [L2 N2].
    set (l2 := move_down l1 _ _ _) in *.
    apply nth_ext_opt; [rewrite firstn_length, LR; lia|]. rewrite firstn_length. intros j Hj. rewrite RHS by lia.
    rewrite nth_firstn_opt, !N2, !N1. clear - Hj H LF L1 L2.
    repeat match goal with |- context [Nat.ltb ?a ?b] => destruct (Nat.ltb_spec a b); try lia | |- context [Nat.leb ?a ?b] => destruct (Nat.leb_spec a b); try lia end; cbn [andb]; try lia; f_equal; lia.
  - destruct (move_down_ok (full s) (nparam s + n_in s + first) (nparam s + n_in s + (first + num)) (n_out s - (first + num)) ltac:(lia) ltac:(lia)) as [L1 N1].
    set (l1 := move_down (full s) _ _ _) in *.
    apply nth_ext_opt; [rewrite firstn_length, LR; lia|]. rewrite firstn_length. intros j Hj. rewrite RHS by lia.
    rewrite nth_firstn_opt, !N1. clear - Hj H LF L1.
    repeat match goal with |- context [Nat.ltb ?a ?b] => destruct (Nat.ltb_spec a b); try lia | |- context [Nat.leb ?a ?b] => destruct (Nat.leb_spec a b); try lia end; cbn [andb]; try lia; f_equal; lia.
Qed.
