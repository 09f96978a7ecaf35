(* Proofs about the schedule map of a schedule tree. *)
From Coq Require Import ZArith List Bool Lia Arith.
From Verif Require Import SchedModel SchedSpec SchedProofs SchedOps SchedMore SchedFinal.
Import ListNotations.
Local Open Scope Z_scope.

Section Map.
Context {I : Type}.
Implicit Types (t s : tree I) (i j : I) (r : root I) (m : list (upa I)) (o um : umap I).

Variable empty : umap I -> bool.
Variable sep : bool.
Hypothesis Hempty : empty_ok empty.

(* Whether the children of a sequence or set get a coordinate. *)
Definition separate r (n : nat) : bool :=
  (1 <? n)%nat && (match r with RSequence => true | _ => false end || sep).

(* The coordinates of a path to a leaf. *)
Inductive vec (i : I) : tree I -> list step -> list Z -> Prop :=
  | vec_leaf : vec i Leaf [] []
  | vec_one r a cs c zs tr v :
      part i r (map Ord zs) -> kid r cs 0 = Some c -> vec i c tr v ->
      vec i (Node r a cs) (map Ord zs ++ tr) (zs ++ v)
  | vec_seq a cs k c tr v :
      nth_error cs k = Some c -> vec i c tr v ->
      vec i (Node RSequence a cs) (Ord (Z.of_nat k) :: tr)
        ((if separate RSequence (length cs) then [Z.of_nat k] else []) ++ v)
  | vec_set a cs k c tr v :
      nth_error cs k = Some c -> vec i c tr v ->
      vec i (Node RSet a cs) (Alt k :: tr)
        ((if separate RSet (length cs) then [Z.of_nat k] else []) ++ v).

Lemma part_ord : forall i r pre, part i r pre -> exists zs, pre = map Ord zs.
Proof. intros i r pre P. inversion P; subst; [eauto | | | | |]; exists []; reflexivity. Qed.

Lemma trace_vec : forall i t tr, trace i t tr -> exists v, vec i t tr v.
Proof.
  intros i t tr T. induction T as [|r a cs c pre tr P K T [v IH] | a cs k c tr K T [v IH] | a cs k c tr K T [v IH]].
  - exists []. constructor.
  - destruct (part_ord _ _ _ P) as [zs ->]. eexists. econstructor; eauto.
  - eexists. eapply vec_seq; eauto.
  - eexists. eapply vec_set; eauto.
Qed.

Lemma vec_trace : forall i t tr v, vec i t tr v -> trace i t tr.
Proof.
  intros i t tr v V. induction V.
  - constructor.
  - econstructor; eauto.
  - eapply trace_seq; eauto.
  - eapply trace_set; eauto.
Qed.

Lemma lex_pre : forall p u v, lexlt u v -> lexlt (p ++ u) (p ++ v).
Proof. induction p as [|x p IH]; intros u v H; simpl; [exact H | apply lex_next, IH, H]. Qed.

Lemma lex_more : forall u v x y, lexlt u v -> lexlt (u ++ x) (v ++ y).
Proof. intros u v x y H. induction H; simpl; constructor; assumption. Qed.

Lemma lex_app : forall p q u v, length p = length q ->
  (lexlt (p ++ u) (q ++ v) <-> lexlt p q \/ (p = q /\ lexlt u v)).
Proof.
  induction p as [|x p IH]; intros [|y q] u v L; try discriminate; simpl.
  - split; [auto | intros [H | [_ H]]; [inversion H | exact H]].
  - injection L as L. split.
    + intros H. inversion H as [? ? ? ? Lt | ? ? ? Lt]; subst.
      * left. apply lex_here. exact Lt.
      * apply IH in Lt; [|exact L]. destruct Lt as [Q | [-> Q]]; [left; apply lex_next; exact Q | auto].
    + intros [H | [E H]].
      * inversion H as [? ? ? ? Lt | ? ? ? Lt]; subst; [apply lex_here; exact Lt | apply lex_next].
        apply IH; auto.
      * injection E as -> ->. apply lex_next. apply IH; auto.
Qed.

Lemma nth_lt : forall (cs : list (tree I)) k l c d, nth_error cs k = Some c -> nth_error cs l = Some d ->
  k <> l -> (1 <? length cs)%nat = true.
Proof.
  intros cs k l c d K L N. apply Nat.ltb_lt.
  assert (k < length cs)%nat by (apply nth_error_Some; congruence).
  assert (l < length cs)%nat by (apply nth_error_Some; congruence). lia.
Qed.

Lemma vec_inv : forall i r a cs tr v, vec i (Node r a cs) tr v ->
  (exists zs c u w, part i r (map Ord zs) /\ kid r cs 0 = Some c /\ vec i c u w /\
     tr = map Ord zs ++ u /\ v = zs ++ w) \/
  ((r = RSequence \/ r = RSet) /\ exists k c u w, nth_error cs k = Some c /\ vec i c u w /\
     tr = (match r with RSequence => Ord (Z.of_nat k) | _ => Alt k end) :: u /\
     v = (if separate r (length cs) then [Z.of_nat k] else []) ++ w).
Proof.
  intros i r a cs tr v V. inversion V; subst.
  - left. eauto 10.
  - right. split; [auto|]. eauto 10.
  - right. split; [auto|]. eauto 10.
Qed.

(* The coordinates follow the order of the tree. *)
Lemma vec_lt : forall i t u x, vec i t u x -> forall j v y, vec j t v y -> tlt u v -> lexlt x y.
Proof.
  intros i t u x V. induction V as [|r a cs c zs tr x P K V IH | a cs k c tr x K V IH | a cs k c tr x K V IH];
    intros j v y W L.
  - inversion L.
  - apply vec_inv in W. destruct W as [(zs' & c' & u & w & P' & K' & W & -> & ->) | [[-> | ->] _]];
      [| inversion P | inversion P].
    assert (c' = c) by congruence. subst c'.
    assert (Lz : length zs = length zs').
    { pose proof (part_length _ _ _ _ _ P P') as Q. rewrite !map_length in Q. exact Q. }
    apply tlt_app in L; [|rewrite !map_length; exact Lz]. apply lex_app; [exact Lz|].
    destruct L as [L | [E L]].
    + left. apply tlt_lex, L.
    + right. split; [apply map_ord_inj, E | eapply IH; eauto].
  - apply vec_inv in W. destruct W as [(zs' & c' & u & w & P' & _) | [_ (k' & c' & u & w & K' & W & -> & ->)]]; [inversion P'|].
    apply tlt_ord in L. destruct L as [L | [E L]].
    + assert (SE : separate RSequence (length cs) = true).
      { unfold separate. rewrite (nth_lt cs k k' c c' K K' ltac:(lia)). reflexivity. }
      rewrite SE. simpl. constructor. exact L.
    + apply Nat2Z.inj in E. subst k'. assert (c' = c) by congruence. subst c'.
      apply lex_pre. eapply IH; eauto.
  - apply vec_inv in W. destruct W as [(zs' & c' & u & w & P' & _) | [_ (k' & c' & u & w & K' & W & -> & ->)]]; [inversion P'|].
    apply tlt_alt in L. destruct L as [E L]. subst k'. assert (c' = c) by congruence. subst c'.
    apply lex_pre. eapply IH; eauto.
Qed.

(* And without sets there is no more order than that. *)
Lemma zeros_lex : forall n k, ~ lexlt (repeat 0 n) (repeat 0 k).
Proof.
  induction n as [|n IH]; intros [|k] H; simpl in H; inversion H; subst; [lia|]. eapply IH; eauto.
Qed.

Lemma vec_gt : forall i t u x, vec i t u x -> no_set t -> forall j v y n k, vec j t v y ->
  lexlt (x ++ repeat 0 n) (y ++ repeat 0 k) -> tlt u v.
Proof.
  intros i t u x V. induction V as [|r a cs c zs tr x P K V IH | a cs k c tr x K V IH | a cs k c tr x K V IH];
    intros NS j v y n0 k0 W L.
  - inversion W; subst. simpl in L. exfalso. eapply zeros_lex; eauto.
  - apply vec_inv in W. destruct W as [(zs' & c' & u & w & P' & K' & W & -> & ->) | [[-> | ->] _]];
      [| inversion P | inversion P].
    assert (c' = c) by congruence. subst c'.
    assert (NSc : no_set c).
    { inversion NS as [|r0 a0 cs0 _ F]; subst. destruct (kid_nth _ _ _ _ K) as [Q | (_ & _ & -> & _)]; [|constructor].
      rewrite Forall_forall in F. apply F. eapply nth_error_In; eauto. }
    assert (Lz : length zs = length zs').
    { pose proof (part_length _ _ _ _ _ P P') as Q. rewrite !map_length in Q. exact Q. }
    rewrite <- !app_assoc in L. apply lex_app in L; [|exact Lz].
    apply tlt_app; [rewrite !map_length; exact Lz|].
    destruct L as [L | [-> L]].
    + left. apply tlt_lex, L.
    + right. split; [reflexivity | eapply IH; eauto].
  - apply vec_inv in W. destruct W as [(zs' & c' & u & w & P' & _) | [_ (k' & c' & u & w & K' & W & -> & ->)]]; [inversion P'|].
    assert (NSc : no_set c).
    { inversion NS as [|r0 a0 cs0 _ F]; subst. rewrite Forall_forall in F. apply F. eapply nth_error_In; eauto. }
    apply tlt_ord. destruct (Nat.eq_dec k k') as [-> | N].
    + right. split; [reflexivity|]. assert (c' = c) by congruence. subst c'.
      rewrite <- !app_assoc in L. apply lex_app in L; [|reflexivity].
      destruct L as [L | [_ L]]; [|eapply IH; eauto].
      exfalso. destruct (separate RSequence (length cs)); inversion L; subst; try lia; inversion H0.
    + assert (SE : separate RSequence (length cs) = true).
      { unfold separate. rewrite (nth_lt cs k k' c c' K K' N). reflexivity. }
      rewrite SE in L. simpl in L. inversion L; subst; [left; assumption | lia].
  - inversion NS; congruence.
Qed.

(* ------------------------------------------------------- the computed map *)

Definition regular o : Prop := forall i v, um_rel o i v -> length v = um_dim o.

(* What it means for um to extend o by the coordinates in the tree. *)
Definition extends o (P : I -> list Z -> Prop) um : Prop :=
  regular um /\
  forall i v, um_rel um i v <->
    exists w x n, um_rel o i w /\ P i x /\ v = w ++ x ++ repeat 0 n /\ length v = um_dim um.

Lemma vals_values : forall m i x, vals m i = Some x <-> values i m x.
Proof.
  induction m as [|u m IH]; intros i x; simpl.
  - split; [intros E; injection E as <-; constructor | intros V; inversion V; reflexivity].
  - split.
    + destruct (u i) as [z|] eqn:U; [|discriminate]. destruct (vals m i) as [l|] eqn:V; [|discriminate].
      intros E. injection E as <-. constructor; [exact U | apply IH, V].
    + intros V. inversion V as [|u0 m0 z l U V']; subst. rewrite U. apply IH in V'. rewrite V'. reflexivity.
Qed.

(* One node, then its child. *)
Lemma extends_step : forall o o' um (P Q : I -> list Z -> Prop) r,
  regular o ->
  (forall i v, um_rel o' i v <-> exists w zs, um_rel o i w /\ part i r (map Ord zs) /\ v = w ++ zs) ->
  extends o' P um ->
  (forall i x, Q i x <-> exists zs y, part i r (map Ord zs) /\ P i y /\ x = zs ++ y) ->
  extends o Q um.
Proof.
  intros o o' um P Q r R E [R' X] HQ. split; [exact R'|]. intros i v. rewrite X. split.
  - intros (w & x & n & W & Px & -> & L). apply E in W. destruct W as (w0 & zs & W & Pz & ->).
    exists w0, (zs ++ x), n. split; [exact W|]. split; [apply HQ; eauto|].
    rewrite <- !app_assoc in *. auto.
  - intros (w & x & n & W & Px & -> & L). apply HQ in Px. destruct Px as (zs & y & Pz & Py & ->).
    exists (w ++ zs), y, n. split; [apply E; eauto|]. split; [exact Py|].
    rewrite <- !app_assoc in *. auto.
Qed.

Lemma extends_leaf : forall o, regular o -> extends o (fun i x => exists tr, vec i (@Leaf I) tr x) o.
Proof.
  intros o R. split; [exact R|]. intros i v. split.
  - intros H. exists v, [], 0%nat. split; [exact H|]. split; [exists []; constructor|].
    split; [simpl; rewrite app_nil_r; reflexivity | apply R with i, H].
  - intros (w & x & n & W & [tr V] & -> & L). inversion V; subst. simpl in L |- *.
    rewrite app_length, repeat_length, (R _ _ W) in L. assert (n = 0)%nat by lia. subst n.
    simpl. rewrite app_nil_r. exact W.
Qed.

Lemma regular_part : forall o o' r n, regular o ->
  (forall i v, um_rel o' i v <-> exists w zs, um_rel o i w /\ part i r (map Ord zs) /\ v = w ++ zs) ->
  um_dim o' = (um_dim o + n)%nat -> (forall i zs, part i r (map Ord zs) -> length zs = n) -> regular o'.
Proof.
  intros o o' r n R E D Ln i v H. apply E in H. destruct H as (w & zs & W & P & ->).
  rewrite app_length, D, (R _ _ W), (Ln _ _ P). reflexivity.
Qed.

(* The loop over the children of a sequence or set, for the children from k on. *)
Definition child_vec (sp : bool) (cs : list (tree I)) (lo : nat) (i : I) (x : list Z) : Prop :=
  exists k c tr y, (k < lo)%nat /\ nth_error cs k = Some c /\ vec i c tr y /\
    x = (if sp then [Z.of_nat k] else []) ++ y.

Definition piece (o : umap I) (P : I -> list Z -> Prop) (dim : nat) (i : I) (v : list Z) : Prop :=
  exists w x n, um_rel o i w /\ P i x /\ v = w ++ x ++ repeat 0 n /\ length v = dim.

Lemma repeat_plus : forall (a b : nat), repeat 0 (a + b) = repeat 0 a ++ repeat 0 b.
Proof. intros. apply repeat_app. Qed.

Lemma piece_pad : forall o (P : I -> list Z -> Prop) dim extra i v,
  (forall i x, P i x -> forall w, um_rel o i w -> (length w + length x <= dim)%nat) ->
  (piece o P (dim + extra) i v <-> exists v0, piece o P dim i v0 /\ v = v0 ++ repeat 0 extra).
Proof.
  intros o P dim extra i v B. split.
  - intros (w & x & n & W & Px & -> & L). pose proof (B _ _ Px _ W) as Q.
    rewrite !app_length, repeat_length in L.
    exists (w ++ x ++ repeat 0 (n - extra)). split.
    + exists w, x, (n - extra)%nat. split; [exact W|]. split; [exact Px|]. split; [reflexivity|].
      rewrite !app_length, repeat_length. lia.
    + rewrite <- !app_assoc, <- repeat_plus. do 3 f_equal. lia.
  - intros (v0 & (w & x & n & W & Px & -> & L) & ->).
    exists w, x, (n + extra)%nat. split; [exact W|]. split; [exact Px|]. rewrite repeat_plus, <- !app_assoc.
    split; [reflexivity|]. rewrite !app_length, !repeat_length in *. lia.
Qed.

Definition bounded o (P : I -> list Z -> Prop) (dim : nat) : Prop :=
  forall i x, P i x -> forall w, um_rel o i w -> (length w + length x <= dim)%nat.

Lemma add_piece_ok : forall o (P Q : I -> list Z -> Prop) u dim ui u' dim',
  (forall i v, um_rel u i v <-> piece o P dim i v) -> bounded o P dim ->
  extends o Q ui -> bounded o Q (um_dim ui) ->
  add_piece empty u dim ui = (u', dim') ->
  (dim <= dim')%nat /\
  bounded o (fun i x => P i x \/ Q i x) dim' /\
  (forall i v, um_rel u' i v <-> piece o (fun i x => P i x \/ Q i x) dim' i v).
Proof.
  intros o P Q u dim ui u' dim' HU BP [RQ HQ] BQ H. unfold add_piece in H.
  assert (HQ' : forall i v, um_rel ui i v <-> piece o Q (um_dim ui) i v) by exact HQ. clear HQ.
  assert (OR : forall d i v, piece o (fun i x => P i x \/ Q i x) d i v <-> piece o P d i v \/ piece o Q d i v).
  { intros d i v. split.
    - intros (w & x & n & W & [Px | Qx] & E & L); [left | right]; exists w, x, n; auto.
    - intros [(w & x & n & W & Px & E & L) | (w & x & n & W & Px & E & L)]; exists w, x, n; auto. }
  assert (MONO : forall (P : I -> list Z -> Prop) d d', bounded o P d -> (d <= d')%nat -> bounded o P d').
  { intros P0 d d' B L i x Px w W. specialize (B i x Px w W). lia. }
  destruct (empty ui) eqn:Em.
  - injection H as <- <-. assert (NQ : forall i x w, Q i x -> um_rel o i w -> False).
    { intros i x w Qx W. pose proof (Hempty ui Em) as NE.
      pose proof (BQ _ _ Qx _ W) as B.
      apply (NE i (w ++ x ++ repeat 0 (um_dim ui - (length w + length x)))).
      apply HQ'. exists w, x, (um_dim ui - (length w + length x))%nat.
      split; [exact W|]. split; [exact Qx|]. split; [reflexivity|].
      rewrite !app_length, repeat_length. lia. }
    split; [lia|]. split.
    + intros i x [Px | Qx] w W; [apply (BP _ _ Px _ W) | exfalso; eauto].
    + intros i v. rewrite HU, OR. split; [auto|]. intros [A | (w & x & n & W & Qx & _)]; [exact A | exfalso; eauto].
  - assert (BOR : forall d, bounded o P d -> bounded o Q d -> bounded o (fun i x => P i x \/ Q i x) d).
    { intros d B1 B2 i x [A | A] w W; [apply (B1 i x A w W) | apply (B2 i x A w W)]. }
    destruct (dim <? um_dim ui)%nat eqn:L1; [|destruct (um_dim ui <? dim)%nat eqn:L2].
    + apply Nat.ltb_lt in L1. injection H as <- <-. split; [lia|].
      split; [apply BOR; [eapply MONO; eauto; lia | exact BQ]|].
      intros i v. rewrite OR. cbn [umap_union append_range um_rel]. rewrite HQ'.
      assert (E : um_dim ui = (dim + (um_dim ui - dim))%nat) by lia.
      pose proof (piece_pad o P dim (um_dim ui - dim) i v BP) as PP. rewrite <- E in PP. rewrite PP.
      split; (intros [(v0 & A & ->) | A]; [left; exists v0; split; [apply HU, A | reflexivity] | auto]).
    + apply Nat.ltb_lt in L2. injection H as <- <-. split; [lia|].
      split; [apply BOR; [exact BP | eapply MONO; eauto; lia]|].
      intros i v. rewrite OR. cbn [umap_union append_range um_rel]. rewrite HU.
      assert (E : dim = (um_dim ui + (dim - um_dim ui))%nat) by lia.
      pose proof (piece_pad o Q (um_dim ui) (dim - um_dim ui) i v BQ) as PP. rewrite <- E in PP. rewrite PP.
      split; (intros [A | (v0 & A & ->)]; [auto | right; exists v0; split; [apply HQ', A | reflexivity]]).
    + apply Nat.ltb_ge in L1, L2. assert (dim = um_dim ui) by lia. injection H as <- <-. subst dim.
      split; [lia|]. split; [apply BOR; assumption|].
      intros i v. rewrite OR. cbn [umap_union um_rel]. rewrite HU, HQ'. reflexivity.
Qed.


(* The map of a tree, with the bound on the dimension. *)
Definition tvec t (i : I) (x : list Z) : Prop := exists tr, vec i t tr x.

Definition covers o (P : I -> list Z -> Prop) um : Prop :=
  extends o P um /\ bounded o P (um_dim um).

Lemma covers_step : forall o o' um (P Q : I -> list Z -> Prop) r,
  regular o ->
  (forall i v, um_rel o' i v <-> exists w zs, um_rel o i w /\ part i r (map Ord zs) /\ v = w ++ zs) ->
  covers o' P um ->
  (forall i x, Q i x <-> exists zs y, part i r (map Ord zs) /\ P i y /\ x = zs ++ y) ->
  covers o Q um.
Proof.
  intros o o' um P Q r R E [X B] HQ. split; [eapply extends_step; eauto|].
  intros i x Qx w W. apply HQ in Qx. destruct Qx as (zs & y & Pz & Py & ->).
  assert (W' : um_rel o' i (w ++ zs)) by (apply E; eauto).
  pose proof (B _ _ Py _ W') as L. rewrite !app_length in *. lia.
Qed.

Lemma covers_leaf : forall o, regular o -> covers o (tvec Leaf) o.
Proof.
  intros o R. split; [apply extends_leaf, R|]. intros i x [tr V] w W. inversion V; subst.
  rewrite (R _ _ W). simpl. lia.
Qed.

Lemma tvec_one : forall r a cs c i x, kid r cs 0 = Some c -> r <> RSequence -> r <> RSet ->
  (tvec (Node r a cs) i x <-> exists zs y, part i r (map Ord zs) /\ tvec c i y /\ x = zs ++ y).
Proof.
  intros r a cs c i x K N1 N2. split.
  - intros [tr V]. apply vec_inv in V.
    destruct V as [(zs & c' & u & w & P & K' & V & -> & ->) | [[-> | ->] _]]; [|congruence|congruence].
    assert (c' = c) by congruence. subst c'. exists zs, w. split; [exact P|]. split; [exists u; exact V | reflexivity].
  - intros (zs & y & P & [u V] & ->). eexists. eapply vec_one; eauto.
Qed.

Definition seq_loop (sp : bool) (outer : umap I) :=
  fix loop (l : list (tree I)) (v : Z) (u : umap I) (dim : nat) : option (umap I) :=
    match l with
    | [] => Some (mkum dim (um_rel u))
    | Node (RFilter f) _ gs :: l' =>
        let mv := if sp then [v] else [] in
        let o := umap_filter outer f mv in
        do ui <- (match gs with
                  | [] => Some o
                  | g :: _ => extend empty sep g o
                  end) ;;
        let '(u, dim) := add_piece empty u dim ui in
        loop l' (v + 1) u dim
    | _ => None
    end.

Definition extend_child (l : list (tree I)) o : option (umap I) :=
  match l with [] => Some o | c :: _ => extend empty sep c o end.

(* The maps of one child. *)
Lemma filter_child : forall (sp : bool) outer f a gs (v : Z) ui,
  regular outer ->
  (forall g o um, List.In g gs -> regular o -> extend empty sep g o = Some um -> covers o (tvec g) um) ->
  (length gs <= 1)%nat ->
  extend_child gs (umap_filter outer f (if sp then [v] else [])) = Some ui ->
  covers outer (fun i x => exists y, tvec (Node (RFilter f) a gs) i y /\
                             x = (if sp then [v] else []) ++ y) ui.
Proof.
  intros sp outer f a gs v ui R IH L H.
  set (mv := if sp then [v] else []) in *.
  set (o := umap_filter outer f mv) in *.
  assert (Ro : regular o).
  { intros i x Q. unfold o in Q. simpl in Q. destruct Q as (w & W & _ & ->).
    rewrite app_length, (R _ _ W). reflexivity. }
  assert (X : exists c, kid (RFilter f) gs 0 = Some c /\ covers o (tvec c) ui).
  { destruct gs as [|g gs].
    - simpl in H. injection H as <-. exists Leaf. split; [reflexivity | apply covers_leaf, Ro].
    - simpl in H. exists g. split; [reflexivity|]. apply IH; [left; reflexivity | exact Ro | exact H]. }
  destruct X as (c & K & [[RU HU] B]).
  assert (TV : forall i y, tvec (Node (RFilter f) a gs) i y <-> f i = true /\ tvec c i y).
  { intros i y. rewrite (tvec_one (RFilter f) a gs c i y K ltac:(discriminate) ltac:(discriminate)). split.
    - intros (zs & y0 & P & T & ->). inversion P as [| | |f0 F Q| |]; subst.
      destruct zs; [|discriminate]. auto.
    - intros [F T]. exists [], y. split; [constructor; exact F | auto]. }
  split; [split; [exact RU|]|].
  - intros i x. rewrite HU. split.
    + intros (w & y & n & W & T & -> & Len). unfold o in W. simpl in W. destruct W as (w0 & W & F & ->).
      exists w0, (mv ++ y), n. split; [exact W|]. split; [exists y; split; [apply TV; auto | reflexivity]|].
      rewrite <- !app_assoc in *. auto.
    + intros (w & y & n & W & (y0 & T & ->) & -> & Len). apply TV in T. destruct T as [F T].
      exists (w ++ mv), y0, n. split; [unfold o; simpl; eauto|]. split; [exact T|].
      rewrite <- !app_assoc in *. auto.
  - intros i x (y & T & ->) w W. apply TV in T. destruct T as [F T].
    assert (W' : um_rel o i (w ++ mv)) by (unfold o; simpl; eauto).
    pose proof (B _ _ T _ W') as Q. rewrite !app_length in *. lia.
Qed.

Lemma piece_ext : forall o (P Q : I -> list Z -> Prop) d i v, (forall i x, P i x <-> Q i x) ->
  (piece o P d i v <-> piece o Q d i v).
Proof.
  intros o P Q d i v E. split; intros (w & x & n & W & Px & Q1 & Q2); exists w, x, n;
    (split; [exact W|]); (split; [apply E; exact Px | auto]).
Qed.

Lemma loop_ok : forall (sp : bool) outer cs, regular outer ->
  (forall c g gs f a o um, List.In c cs -> c = Node (RFilter f) a gs -> List.In g gs -> regular o ->
     extend empty sep g o = Some um -> covers o (tvec g) um) ->
  (forall c, List.In c cs -> exists f a gs, c = Node (RFilter f) a gs /\ (length gs <= 1)%nat) ->
  forall l pre u dim um, cs = pre ++ l ->
  (forall i v, um_rel u i v <-> piece outer (child_vec sp cs (length pre)) dim i v) ->
  bounded outer (child_vec sp cs (length pre)) dim ->
  seq_loop sp outer l (Z.of_nat (length pre)) u dim = Some um ->
  covers outer (child_vec sp cs (length cs)) um.
Proof.
  intros sp outer cs R IH Sh. induction l as [|c l IHl]; intros pre u dim um E HU B H.
  - simpl in H. injection H as <-. rewrite app_nil_r in E. subst pre.
    split; [|exact B]. split.
    + intros i v V. simpl in V. apply HU in V. destruct V as (w & x & n & _ & _ & _ & L). exact L.
    + intros i v. simpl. rewrite HU. reflexivity.
  - assert (Hc : List.In c cs) by (rewrite E; apply in_or_app; right; left; reflexivity).
    destruct (Sh c Hc) as (f & a & gs & -> & Lg). cbn [seq_loop] in H.
    change (match gs with
            | [] => Some (umap_filter outer f (if sp then [Z.of_nat (length pre)] else []))
            | g :: _ => extend empty sep g (umap_filter outer f (if sp then [Z.of_nat (length pre)] else []))
            end) with (extend_child gs (umap_filter outer f (if sp then [Z.of_nat (length pre)] else []))) in H.
    destruct (extend_child gs (umap_filter outer f (if sp then [Z.of_nat (length pre)] else []))) as [ui|] eqn:EC; [|discriminate].
    destruct (filter_child sp outer f a gs (Z.of_nat (length pre)) ui R) as [EX BX]; [| exact Lg | exact EC |].
    { intros g o um0 Hg Ro X. eapply IH; eauto. }
    destruct (add_piece empty u dim ui) as [u' dim'] eqn:AP.
    destruct (add_piece_ok outer _ _ u dim ui u' dim' HU B EX BX AP) as (_ & B' & HU').
    assert (N : nth_error cs (length pre) = Some (Node (RFilter f) a gs)).
    { rewrite E, nth_error_app2, Nat.sub_diag by lia. reflexivity. }
    assert (CV : forall i x, child_vec sp cs (length pre) i x \/
                   (exists y, tvec (Node (RFilter f) a gs) i y /\ x = (if sp then [Z.of_nat (length pre)] else []) ++ y) <->
                 child_vec sp cs (S (length pre)) i x).
    { intros i x. split.
      - intros [(k & c & tr & y & Lk & Nk & V & ->) | (y & [tr V] & ->)].
        + exists k, c, tr, y. split; [lia | auto].
        + exists (length pre), (Node (RFilter f) a gs), tr, y. split; [lia | auto].
      - intros (k & c & tr & y & Lk & Nk & V & ->). destruct (Nat.eq_dec k (length pre)) as [-> | Ne].
        + right. assert (c = Node (RFilter f) a gs) by congruence. subst c. exists y. split; [exists tr; exact V | reflexivity].
        + left. exists k, c, tr, y. split; [lia | auto]. }
    apply (IHl (pre ++ [Node (RFilter f) a gs]) u' dim' um).
    + rewrite <- app_assoc. exact E.
    + intros i v. rewrite HU', app_length, Nat.add_1_r. apply piece_ext, CV.
    + rewrite app_length, Nat.add_1_r. intros i x X. apply CV in X. apply (B' i x X).
    + rewrite app_length, Nat.add_1_r, Nat2Z.inj_succ. exact H.
Qed.

Lemma kid_first : forall r (cs : list (tree I)), r <> RSequence -> r <> RSet ->
  kid r cs 0 = Some (match cs with [] => Leaf | c :: _ => c end).
Proof. intros r [|c cs] N1 N2; destruct r; try congruence; reflexivity. Qed.

Lemma extend_ok : forall t o um, wf t -> regular o ->
  extend empty sep t o = Some um -> covers o (tvec t) um.
Proof.
  enough (G : forall t, (forall o um, wf t -> regular o -> extend empty sep t o = Some um -> covers o (tvec t) um) /\
              (forall c, match t with Leaf => False | Node _ _ cs => List.In c cs end ->
                 forall o um, wf c -> regular o -> extend empty sep c o = Some um -> covers o (tvec c) um))
    by (intros t; exact (proj1 (G t))).
  intros t. induction t as [|r a cs IH] using tree_ind'.
  { split; [intros o um _ _ H; discriminate H | intros c []]. }
  rewrite Forall_forall in IH.
  assert (IHc : forall c, List.In c cs -> forall o um, wf c -> regular o -> extend empty sep c o = Some um -> covers o (tvec c) um)
    by (intros c Hc; exact (proj1 (IH c Hc))).
  split; [|exact IHc].
  intros o um W R H.
  assert (CH : forall o um, regular o -> r <> RSequence -> r <> RSet -> extend_child cs o = Some um ->
                exists c, kid r cs 0 = Some c /\ covers o (tvec c) um).
  { intros o0 um0 R0 N1 N2 X. rewrite (kid_first r cs N1 N2). eexists. split; [reflexivity|].
    destruct cs as [|c cs]; simpl in X; [injection X as <-; apply covers_leaf, R0|].
    apply (IHc c); [left; reflexivity | eapply wf_child; [exact W | left; reflexivity] | exact R0 | exact X]. }
  assert (STEP : r <> RSequence -> r <> RSet -> forall o',
            (forall i v, um_rel o' i v <-> exists w zs, um_rel o i w /\ part i r (map Ord zs) /\ v = w ++ zs) ->
            regular o' -> extend_child cs o' = Some um -> covers o (tvec (Node r a cs)) um).
  { intros N1 N2 o' E R' X. destruct (CH o' um R' N1 N2 X) as (c & K & C).
    eapply covers_step; [exact R | exact E | exact C |]. intros i x. apply tvec_one; assumption. }
  assert (SIL : silent r -> extend_child cs o = Some um -> covers o (tvec (Node r a cs)) um).
  { intros Si X. destruct (silent_one _ Si) as [N1 N2]. apply (STEP N1 N2 o); [|exact R|exact X].
    intros i v. split.
    - intros V. exists v, []. split; [exact V|]. split; [apply silent_part; [exact Si | reflexivity] | symmetry; apply app_nil_r].
    - intros (w & zs & V & P & ->). apply silent_part in P; [|exact Si].
      destruct zs; [|discriminate]. rewrite app_nil_r. exact V. }
  assert (FIL : forall f : uset I, (forall i zs, part i r (map Ord zs) <-> f i = true /\ zs = []) ->
            r <> RSequence -> r <> RSet ->
            extend_child cs (umap_filter o f []) = Some um -> covers o (tvec (Node r a cs)) um).
  { intros f P N1 N2 X. apply (STEP N1 N2 (umap_filter o f [])); [| |exact X].
    - intros i v. simpl. split.
      + intros (w & V & F & ->). exists w, []. split; [exact V|]. split; [apply P; auto | reflexivity].
      + intros (w & zs & V & Q & ->). apply P in Q. destruct Q as [F ->]. eauto.
    - intros i v V. simpl in V. destruct V as (w & V & _ & ->). simpl. rewrite app_nil_r, (R _ _ V). lia. }
  assert (MANY : r = RSequence \/ r = RSet -> seq_loop (separate r (length cs)) o cs 0
             (mkum 0 (fun _ _ => False)) (if separate r (length cs) then 1 else 0)%nat = Some um ->
             covers o (tvec (Node r a cs)) um).
  { intros RR X.
    assert (C : covers o (child_vec (separate r (length cs)) cs (length cs)) um).
    { inversion W as [|r0 a0 cs0 N1 N2 _ _ _ | r0 a0 cs0 _ NE Fw Ff]; subst; [destruct RR; congruence|].
      rewrite Forall_forall in Fw, Ff.
      apply (loop_ok (separate r (length cs)) o cs R) with (l := cs) (pre := [])
        (u := mkum 0 (fun _ _ => False)) (dim := (if separate r (length cs) then 1 else 0)%nat); [| |reflexivity| | |exact X].
      - intros c g gs f b o0 um0 Hc -> Hg R0 E0. apply (proj2 (IH _ Hc) g Hg); [|exact R0|exact E0].
        eapply wf_child; [apply Fw, Hc | exact Hg].
      - intros c Hc. destruct (Ff c Hc) as (f & b & l & ->). exists f, b, l. split; [reflexivity|].
        specialize (Fw _ Hc). inversion Fw as [|r1 a1 cs1 _ _ _ L _ | r1 a1 cs1 Q _ _ _]; subst; [exact L | destruct Q; discriminate].
      - intros i v. simpl. split; [intros []|]. intros (w & x & n & _ & (k & c & tr & y & Lk & _) & _). simpl in Lk. lia.
      - intros i x (k & c & tr & y & Lk & _). simpl in Lk. lia. }
    destruct C as [[RU HU] B].
    assert (EQ : forall i x, child_vec (separate r (length cs)) cs (length cs) i x <-> tvec (Node r a cs) i x).
    { intros i x. split.
      - intros (k & c & tr & y & _ & N & V & ->).
        destruct RR as [-> | ->]; eexists; [eapply vec_seq; eauto | eapply vec_set; eauto].
      - intros [tr V]. apply vec_inv in V. destruct V as [(zs & c & u & w & P & _) | [_ (k & c & u & w & N & V & _ & ->)]].
        + destruct RR as [-> | ->]; inversion P.
        + exists k, c, u, w. split; [apply nth_error_Some; congruence | auto]. }
    split; [split; [exact RU|]|].
    - intros i v. rewrite HU. apply piece_ext, EQ.
    - intros i x X1. apply EQ in X1. apply (B i x X1). }
  destruct r as [b| |d|f| |id| |]; cbn [extend] in H.
  - destruct (b_n b =? 0)%nat eqn:Bn.
    + apply Nat.eqb_eq in Bn. apply (STEP ltac:(discriminate) ltac:(discriminate) o); [|exact R|exact H].
      destruct (wf_one_inv _ _ _ W ltac:(discriminate) ltac:(discriminate)) as [OK _].
      destruct (OK b eq_refl) as [O1 _]. rewrite Bn in O1.
      assert (M : b_mupa b = []) by (destruct (b_mupa b); [reflexivity | discriminate]).
      intros i v. split.
      * intros V. exists v, []. split; [exact V|]. split; [|symmetry; apply app_nil_r].
        apply (part_band i b []). rewrite M. constructor.
      * intros (w & zs & V & P & ->). inversion P as [b0 z Vz Eb Ez| | | | |]; subst.
        apply map_ord_inj in Ez. subst z. rewrite M in Vz. inversion Vz; subst. rewrite app_nil_r. exact V.
    + apply (STEP ltac:(discriminate) ltac:(discriminate) (umap_band o (b_mupa b))); [| |exact H].
      * intros i v. simpl. split.
        -- intros (w & x & V & Vx & ->). apply vals_values in Vx. exists w, x. split; [exact V|].
           split; [constructor; exact Vx | reflexivity].
        -- intros (w & zs & V & P & ->). inversion P as [b0 z Vz Eb Ez| | | | |]; subst.
           apply map_ord_inj in Ez. subst z. exists w, zs. split; [exact V|]. split; [apply vals_values, Vz | reflexivity].
      * intros i v V. simpl in V. destruct V as (w & x & V & Vx & ->). apply vals_values in Vx.
        simpl. rewrite app_length, (R _ _ V), (values_length _ _ _ Vx). reflexivity.
  - apply SIL; [exact Logic.I | exact H].
  - apply (FIL d); [|discriminate|discriminate|exact H].
    intros i zs. split.
    + intros P. inversion P as [| |d0 F Eq E| | |]; subst. destruct zs; [auto | discriminate].
    + intros [F ->]. constructor. exact F.
  - apply (FIL f); [|discriminate|discriminate|exact H].
    intros i zs. split.
    + intros P. inversion P as [| | |f0 F Eq E| |]; subst. destruct zs; [auto | discriminate].
    + intros [F ->]. constructor. exact F.
  - apply SIL; [exact Logic.I | exact H].
  - apply SIL; [exact Logic.I | exact H].
  - destruct cs as [|c0 cs0]; [discriminate|]. apply (MANY (or_introl eq_refl)). exact H.
  - destruct cs as [|c0 cs0]; [discriminate|]. apply (MANY (or_intror eq_refl)). exact H.
Qed.

(* Skipping the nodes without schedule information. *)
Lemma descendant_ok : forall t, wf t -> wf (first_schedule_descendant t) /\
  (forall i x, tvec t i x <-> tvec (first_schedule_descendant t) i x).
Proof.
  intros t. induction t as [|r a cs IH] using tree_ind'; intros W; [split; [exact W | tauto]|].
  rewrite Forall_forall in IH.
  assert (DOWN : r <> RSequence -> r <> RSet -> (forall i zs, part i r (map Ord zs) <-> zs = []) ->
            let d := match cs with [] => Leaf | c :: _ => first_schedule_descendant c end in
            wf d /\ (forall i x, tvec (Node r a cs) i x <-> tvec d i x)).
  { intros N1 N2 P d.
    assert (ONE : forall i x, tvec (Node r a cs) i x <-> tvec (match cs with [] => Leaf | c :: _ => c end) i x).
    { intros i x. rewrite (tvec_one r a cs _ i x (kid_first r cs N1 N2) N1 N2). split.
      - intros (zs & y & Q & T & ->). apply P in Q. subst zs. exact T.
      - intros T. exists [], x. split; [apply P; reflexivity | auto]. }
    destruct cs as [|c cs]; [split; [constructor | exact ONE]|].
    destruct (IH c (or_introl eq_refl)) as [Wd E]; [eapply wf_child; [exact W | left; reflexivity]|].
    split; [exact Wd|]. intros i x. rewrite ONE. apply E. }
  assert (SELF : wf (Node r a cs) /\ (forall i x, tvec (Node r a cs) i x <-> tvec (Node r a cs) i x))
    by (split; [exact W | tauto]).
  assert (SIL : silent r -> forall i zs, part i r (map Ord zs) <-> zs = []).
  { intros Si i zs. rewrite silent_part by exact Si. split; [destruct zs; [auto | discriminate] | intros ->; reflexivity]. }
  destruct r as [b| |d|f| |id| |]; cbn [first_schedule_descendant]; try exact SELF;
    try (apply DOWN; [discriminate | discriminate | apply SIL; exact Logic.I]).
  destruct (b_n b =? 0)%nat eqn:Bn; [|exact SELF]. apply Nat.eqb_eq in Bn.
  apply DOWN; [discriminate | discriminate|].
  destruct (wf_one_inv _ _ _ W ltac:(discriminate) ltac:(discriminate)) as [OK _].
  destruct (OK b eq_refl) as [O1 _]. rewrite Bn in O1.
  assert (M : b_mupa b = []) by (destruct (b_mupa b); [reflexivity | discriminate]).
  intros i zs. split.
  - intros P. inversion P as [b0 z Vz Eb Ez| | | | |]; subst.
    apply map_ord_inj in Ez. subst z. rewrite M in Vz. inversion Vz. reflexivity.
  - intros ->. apply (part_band i b []). rewrite M. constructor.
Qed.

Lemma subtree_schedule_covers : forall t um, wf t -> subtree_schedule empty sep t = Some um ->
  regular um /\ (forall i x, tvec t i x -> (length x <= um_dim um)%nat) /\
  forall i v, um_rel um i v <-> exists x n, tvec t i x /\ v = x ++ repeat 0 n /\ length v = um_dim um.
Proof.
  intros t um W H. destruct (descendant_ok t W) as [Wd E]. unfold subtree_schedule in H.
  assert (RU : regular umap_universe) by (intros i v V; simpl in V; subst v; reflexivity).
  assert (C : covers umap_universe (tvec (first_schedule_descendant t)) um).
  { destruct (first_schedule_descendant t) as [|r a cs]; [injection H as <-; apply covers_leaf, RU|].
    apply (extend_ok _ _ _ Wd RU H). }
  destruct C as [[R X] B]. split; [exact R|]. split.
  - intros i x T. apply E in T. apply (B i x T []). reflexivity.
  - intros i v. rewrite X. split.
    + intros (w & x & n & Wu & T & -> & L). simpl in Wu. subst w. exists x, n. split; [apply E, T | auto].
    + intros (x & n & T & -> & L). exists [], x, n. split; [reflexivity|]. split; [apply E, T | auto].
Qed.

(* The order of the vectors is the order of the tree. *)
Lemma subtree_schedule_ok : forall t um, wf t -> subtree_schedule empty sep t = Some um ->
  (forall i v, um_rel um i v -> length v = um_dim um) /\
  (forall i, (exists v, um_rel um i v) <-> execs t i) /\
  (forall i j, before t i j -> exists v w, um_rel um i v /\ um_rel um j w /\ lexlt v w) /\
  (no_set t -> forall i j v w, um_rel um i v -> um_rel um j w -> lexlt v w -> before t i j).
Proof.
  intros t um W H. destruct (subtree_schedule_covers t um W H) as (R & B & X).
  assert (PAD : forall i x, tvec t i x -> um_rel um i (x ++ repeat 0 (um_dim um - length x))).
  { intros i x T. apply X. exists x, (um_dim um - length x)%nat. split; [exact T|]. split; [reflexivity|].
    pose proof (B i x T). rewrite app_length, repeat_length. lia. }
  split; [exact R|]. split; [|split].
  - intros i. split.
    + intros [v V]. apply X in V. destruct V as (x & n & [tr T] & _). exists tr. eapply vec_trace, T.
    + intros [tr T]. apply trace_vec in T. destruct T as [x T]. eexists. apply PAD. exists tr. exact T.
  - intros i j (u & v & Tu & Tv & L). apply trace_vec in Tu. apply trace_vec in Tv.
    destruct Tu as [x Vx]. destruct Tv as [y Vy].
    eexists _, _. split; [apply PAD; exists u; exact Vx|]. split; [apply PAD; exists v; exact Vy|].
    apply lex_more. eapply vec_lt; eauto.
  - intros NS i j v w V Q L. apply X in V. apply X in Q.
    destruct V as (x & n & [u Vx] & -> & _). destruct Q as (y & k & [tv Vy] & -> & _).
    exists u, tv. split; [eapply vec_trace, Vx|]. split; [eapply vec_trace, Vy|].
    eapply vec_gt; eauto.
Qed.

Lemma get_map_ok : forall t um, wf t -> get_map empty sep t = Some um ->
  exists c, at_pos t [0%nat] c /\
  (forall i v, um_rel um i v -> length v = um_dim um) /\
  (forall i, (exists v, um_rel um i v) <-> execs c i) /\
  (forall i j, before t i j -> exists v w, um_rel um i v /\ um_rel um j w /\ lexlt v w) /\
  (no_set t -> forall i j v w, execs t i -> execs t j ->
     um_rel um i v -> um_rel um j w -> lexlt v w -> before t i j).
Proof.
  intros t um W H. unfold get_map in H. destruct t as [|[b| |d|f| |id| |] a cs]; try discriminate.
  destruct (node_child (Node (RDomain d) a cs) 0) as [c|] eqn:NC; [|discriminate].
  destruct (node_child_kid _ _ _ W NC) as (r0 & a0 & cs0 & E & Wc & K). injection E as <- <- <-.
  assert (Kc : kid (RDomain d) cs 0 = Some c).
  { destruct K as [K | [_ K]]; [exact K | congruence]. }
  destruct (subtree_schedule_ok c um Wc H) as (R & Ex & Be & Co).
  exists c. split; [econstructor; [exact Kc | constructor]|]. split; [exact R|]. split; [exact Ex|].
  assert (T : forall i tr, trace i (Node (RDomain d) a cs) tr <-> d i = true /\ trace i c tr).
  { intros i tr. rewrite (one_iff i (RDomain d) a cs c tr Kc ltac:(discriminate) ltac:(discriminate)). split.
    - intros (pre & u & P & X & ->). inversion P; subst. auto.
    - intros [F X]. exists [], tr. split; [constructor; exact F | auto]. }
  split.
  - intros i j (u & v & Tu & Tv & L). apply T in Tu. apply T in Tv. apply Be. exists u, v. tauto.
  - intros NS i j v w [u Tu] [u' Tu'] V Q L. apply T in Tu. apply T in Tu'.
    assert (NSc : no_set c).
    { inversion NS as [|r1 a1 cs1 _ F]; subst. destruct (kid_nth _ _ _ _ Kc) as [Qn | (_ & _ & -> & _)]; [|constructor].
      rewrite Forall_forall in F. apply F. eapply nth_error_In; eauto. }
    destruct (Co NSc i j v w V Q L) as (p & q & Tp & Tq & Lpq).
    exists p, q. split; [apply T; tauto|]. split; [apply T; tauto | exact Lpq].
Qed.

End Map.
