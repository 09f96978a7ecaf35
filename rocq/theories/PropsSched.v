(** C41: the transformations of schedule trees preserve the order of the
    instances, or change it as documented. *)
From Coq Require Import ZArith List Bool Arith Lia.
From Verif Require Import SchedModel SchedSpec SchedProofs SchedOps SchedMore SchedFinal SchedInv SchedMap.
Import ListNotations.
Open Scope Z_scope.

(** Missing for the full claim: expansion and extension nodes, grouping and
    grafting (isl_schedule_node_group, isl_schedule_node_graft_before and the
    like, isl_schedule_node_order_before and the like), the computation of
    isl_schedule_node_gist. *)

(** splitting a band does not change the order, and divides the members *)
Theorem C41_split_partial {I} (t : tree I) p pos t' : wf t -> node_band_split t p pos = Some t' -> same_order t t'.
Proof. exact (node_split_order t p pos t'). Qed.
Theorem C41_split_members {I} (t : tree I) p pos t' : wf t -> node_band_split t p pos = Some t' ->
  exists b a cs b1 a1 b2 a2, at_pos t p (Node (RBand b) a cs) /\
    at_pos t' p (Node (RBand b1) a1 [Node (RBand b2) a2 cs]) /\ same_outside p t t' /\
    0 <= pos <= Z.of_nat (b_n b) /\
    b_n b1 = Z.to_nat pos /\ b_n b2 = (b_n b - Z.to_nat pos)%nat /\ b_mupa b1 ++ b_mupa b2 = b_mupa b /\
    (forall k, (k < b_n b1)%nat -> nth k (b_coin b1) false = nth k (b_coin b) false) /\
    (forall k, (k < b_n b2)%nat -> nth k (b_coin b2) false = nth (b_n b1 + k) (b_coin b) false).
Proof. exact (node_split_members t p pos t'). Qed.

(** marks, contexts and guards do not change the order *)
Theorem C41_insert {I} (t : tree I) p r t' : wf t -> silent r -> node_insert t p r = Some t' -> same_order t t'.
Proof. exact (node_insert_order t p r t'). Qed.

(** a filter restricts the instances *)
Theorem C41_filter {I} (t : tree I) p f t' : wf t -> node_insert_filter t p f = Some t' ->
  exists s s', at_pos t p s /\ at_pos t' p s' /\ same_outside p t t' /\
    (forall i, execs s' i <-> f i = true /\ execs s i) /\
    (forall i j, before s' i j <-> f i = true /\ f j = true /\ before s i j).
Proof. exact (node_insert_filter_ok t p f t'). Qed.

(** a band comes first *)
Theorem C41_band {I} (t : tree I) p m t' : wf t -> node_insert_partial_schedule t p m = Some t' ->
  exists s s', at_pos t p s /\ at_pos t' p s' /\ same_outside p t t' /\
    (forall i, execs s' i <-> (exists x, values i m x) /\ execs s i) /\
    (forall i j, before s' i j <-> banded m s i j).
Proof. exact (node_insert_band_ok t p m t'). Qed.

(** tiling a band: first the tiles, then the points of the tile in the order of the band *)
Theorem C41_tile {I} scale shift (t : tree I) p sizes t' : wf t -> node_band_tile scale shift t p sizes = Some t' ->
  exists b a cs c s',
    at_pos t p (Node (RBand b) a cs) /\ kid (RBand b) cs 0 = Some c /\
    at_pos t' p s' /\ same_outside p t t' /\
    (forall i, execs s' i <-> execs (Node (RBand b) a cs) i) /\
    (forall i j, before s' i j <-> tiled (b_mupa b) sizes c i j).
Proof. exact (node_tile_ok scale shift t p sizes t'). Qed.

(** tiling a band that is permutable for the dependences does not violate them *)
Theorem C41_tile_legal {I} scale shift (t : tree I) p sizes t' (D : I -> I -> Prop) : wf t ->
  node_band_tile scale shift t p sizes = Some t' ->
  (forall b a cs, at_pos t p (Node (RBand b) a cs) ->
     forall i j x y, D i j -> values i (b_mupa b) x -> values j (b_mupa b) y -> Forall2 Z.le x y) ->
  forall i j, D i j -> before t i j -> before t' i j.
Proof. exact (node_tile_legal scale shift t p sizes t' D). Qed.

(** scaling a band by positive factors does not change the order *)
Theorem C41_scale {I} (t : tree I) p mv t' : wf t -> node_band_scale t p mv = Some t' ->
  Forall (fun z => 0 < z) mv -> same_order t t'.
Proof. exact (node_scale_ok t p mv t'). Qed.

(** sinking a band: first the child, then the band *)
Theorem C41_sink {I} (t : tree I) p t' : wf t -> node_band_sink t p = Some t' ->
  exists b a cs c s',
    at_pos t p (Node (RBand b) a cs) /\ kid (RBand b) cs 0 = Some c /\
    at_pos t' p s' /\ same_outside p t t' /\
    (forall i, execs s' i <-> execs (Node (RBand b) a cs) i) /\
    (forall i j, before s' i j <-> sunk (b_mupa b) c i j).
Proof. exact (node_sink_ok t p t'). Qed.

(** splicing a sequence in its parent does not change the order *)
Theorem C41_splice {I} subset (t : tree I) p pos t' : subset_ok subset -> wf t ->
  node_splice_child subset t p pos = Some t' -> same_order t t'.
Proof. exact (fun s w h => proj2 (node_splice_ok subset t p pos t' s w h)). Qed.
Theorem C41_splice_children {I} subset (t : tree I) p t' : subset_ok subset -> wf t ->
  node_splice_children subset t p = Some t' -> wf t' /\ same_order t t'.
Proof. exact (node_splice_children_ok subset t p t'). Qed.

(** inserting a sequence or a set of filters *)
Theorem C41_sequence {I} gist r (t : tree I) p fs t' : wf t -> gist_ok gist -> (r = RSequence \/ r = RSet) ->
  node_insert_children gist r t p fs = Some t' ->
  exists s s', at_pos t p s /\ at_pos t' p s' /\ same_outside p t t' /\
    (forall i, execs s' i <-> (exists f, List.In f fs /\ f i = true) /\ execs s i) /\
    (forall i j, before s' i j <->
       match r with RSequence => sequenced s fs i j | _ => alternated s fs i j end).
Proof. exact (node_insert_children_ok gist r t p fs t'). Qed.

(** deleting a node moves its child up; this does not change the order unless it is a band or a filter *)
Theorem C41_delete {I} (t : tree I) p t' : wf t -> node_delete t p = Some t' ->
  exists r a cs, let c := match cs with [] => Leaf | c :: _ => c end in
    at_pos t p (Node r a cs) /\ at_pos t' p c /\ same_outside p t t' /\
    (silent r \/ r = RSequence \/ r = RSet -> same_order t t').
Proof. exact (node_delete_ok t p t'). Qed.

(** what holds below a position carries over to the whole of the tree *)
Theorem C41_outside {I} (s s' : tree I) (D : I -> I -> Prop) p t t' :
  (forall i, execs s i -> execs s' i) -> (forall i j, D i j -> before s i j -> before s' i j) ->
  same_outside p t t' -> at_pos t p s -> at_pos t' p s' ->
  (forall i, execs t i -> execs t' i) /\ (forall i j, D i j -> before t i j -> before t' i j).
Proof. exact (fun he hb => outside_legal s s' D he hb p t t'). Qed.

(** the shape of the trees and the field anchored are maintained *)
Theorem C41_invariant {I} subset (t t' : tree I) : wf t -> anch_ok t -> edits subset t t' -> wf t' /\ anch_ok t'.
Proof. exact (edits_good subset t t'). Qed.

(** tiling is not refused without a reason *)
Theorem C41_tile_total {I} scale shift (t : tree I) p sizes b a cs : anch_ok t ->
  subtree t p = Some (Node (RBand b) a cs) -> ~ has_anchor (Node (RBand b) a cs) ->
  length sizes = b_n b -> Forall (fun z => 0 < z) sizes ->
  exists t', node_band_tile scale shift t p sizes = Some t'.
Proof. exact (node_tile_total scale shift t p sizes b a cs). Qed.

(** the schedule map: vectors of the same length, in the order of the tree *)
Theorem C41_map {I} empty sep (t : tree I) um : empty_ok empty -> wf t -> get_map empty sep t = Some um ->
  exists c, at_pos t [0%nat] c /\
  (forall i v, um_rel um i v -> length v = um_dim um) /\
  (forall i, (exists v, um_rel um i v) <-> execs c i) /\
  (forall i j, before t i j -> exists v w, um_rel um i v /\ um_rel um j w /\ lexlt v w) /\
  (no_set t -> forall i j v w, execs t i -> execs t j ->
     um_rel um i v -> um_rel um j w -> lexlt v w -> before t i j).
Proof. exact (fun e => get_map_ok empty sep e t um). Qed.

(** Examples: the instances (i,j), the even rows before the odd ones. *)
Definition inst := (Z * Z)%type.
Definition xi : upa inst := fun p => Some (fst p).
Definition xj : upa inst := fun p => Some (snd p).
Definition ev : uset inst := fun p => Z.even (fst p).
Definition od : uset inst := fun p => Z.odd (fst p).
Definition low : uset inst := fun p => snd p <? 5.
Definition dom : uset inst := fun p => (0 <=? fst p) && (fst p <? 10) && (0 <=? snd p) && (snd p <? 10).

Definition inner : tree inst :=
  Node RSequence false [Node (RFilter ev) false []; Node (RFilter od) false [Node (RMark 1) false []]].
Definition nest : tree inst := Node (RBand (mkband 2 [true; false] [xi; xj] false)) false [inner].
Definition ex : tree inst := Node (RDomain dom) false [nest].

Ltac wf_tac :=
  repeat match goal with
    | |- wf Leaf => apply wf_leaf
    | |- wf (Node RSequence _ _) => apply wf_many; [auto | discriminate | |]
    | |- wf (Node RSet _ _) => apply wf_many; [auto | discriminate | |]
    | |- wf (Node _ _ _) => apply wf_one; [discriminate | discriminate | | simpl; lia |]
    | |- band_ok _ => let b := fresh "b" in let E := fresh "E" in
        intros b E; first [discriminate E | injection E as <-; simpl; split; [reflexivity | lia]]
    | |- Forall _ [] => constructor
    | |- Forall _ (_ :: _) => constructor
    | |- exists _ _ _, _ = _ => do 3 eexists; reflexivity
    end.

Ltac anch_tac :=
  repeat match goal with
    | |- anch_ok Leaf => apply ao_leaf
    | |- anch_ok (Node _ _ _) => apply anch_node; split; [reflexivity|]
    | |- Forall _ [] => constructor
    | |- Forall _ (_ :: _) => constructor
    end.

Example ex_wf : wf ex.
Proof. unfold ex, nest, inner. wf_tac. Qed.

Example ex_anch : anch_ok ex.
Proof.
  unfold ex, nest, inner. anch_tac.
Qed.

Definition pt (i j : Z) : inst := (i, j).

(* an instance on its way through the tree *)
Lemma ex_trace_even : forall i j, dom (i, j) = true -> Z.even i = true ->
  trace (i, j) ex [Ord i; Ord j; Ord 0].
Proof.
  intros i j D E. unfold ex.
  apply (trace_one (i, j) (RDomain dom) false [nest] nest [] [Ord i; Ord j; Ord 0]); [constructor; exact D | reflexivity |].
  apply (trace_one (i, j) (RBand (mkband 2 [true; false] [xi; xj] false)) false [inner] inner (map Ord [i; j]) [Ord 0]);
    [constructor; repeat constructor | reflexivity |].
  apply (trace_seq (i, j) false _ 0 (Node (RFilter ev) false []) []); [reflexivity|].
  apply (trace_one (i, j) (RFilter ev) false [] Leaf [] []); [constructor; exact E | reflexivity | constructor].
Qed.

(* (0,7) comes before (2,0) *)
Example ex_before : before ex (pt 0 7) (pt 2 0).
Proof.
  eexists _, _. split; [apply ex_trace_even; reflexivity|]. split; [apply ex_trace_even; reflexivity|].
  apply tlt_here. reflexivity.
Qed.

(* The band is split, keeping the order. *)
Example ex_split : exists t', node_band_split ex [0%nat] 1 = Some t' /\ before t' (pt 0 7) (pt 2 0).
Proof.
  eexists. split; [reflexivity|].
  apply (proj2 (C41_split_partial ex [0%nat] 1 _ ex_wf eq_refl)). exact ex_before.
Qed.
Example ex_split_members : exists t' b1 a1 b2 a2, node_band_split ex [0%nat] 1 = Some t' /\
  at_pos t' [0%nat] (Node (RBand b1) a1 [Node (RBand b2) a2 [inner]]) /\
  b_n b1 = 1%nat /\ b_n b2 = 1%nat /\ nth 0 (b_coin b1) false = true /\ nth 0 (b_coin b2) false = false.
Proof.
  eexists _, (mkband 1 [true; false] [xi] false), false, (mkband 1 [false; false] [xj] false), false.
  split; [reflexivity|]. split; [|auto]. econstructor; [reflexivity | constructor].
Qed.
(* The position has to be in range. *)
Example ex_split_range : node_band_split ex [0%nat] 3 = None. Proof. reflexivity. Qed.

(* A mark and a guard. *)
Example ex_insert : exists t', node_insert ex [0%nat] (RMark 3) = Some t' /\ before t' (pt 0 7) (pt 2 0).
Proof.
  eexists. split; [reflexivity|].
  apply (proj2 (C41_insert ex [0%nat] (RMark 3) _ ex_wf Logic.I eq_refl)). exact ex_before.
Qed.
(* Nothing can be inserted between a sequence and its filters. *)
Example ex_insert_seq : node_insert ex [0%nat; 0%nat; 1%nat] (RMark 3) = None. Proof. reflexivity. Qed.

(* A filter drops (0,7). *)
Example ex_filter : exists t', node_insert_filter ex [0%nat] low = Some t' /\ ~ execs t' (pt 0 7).
Proof.
  eexists. split; [reflexivity|]. intros [tr T].
  inversion T as [|r a cs c pre tr' P K T' | |]; subst. injection K as <-.
  inversion T' as [|r a cs c pre2 tr2 P2 K2 T2 | |]; subst. inversion P2 as [| | |f F| |]; subst. discriminate F.
Qed.

(* A new outer band reverses the rows. *)
Example ex_band : exists t', node_insert_partial_schedule ex [0%nat] [fun p => Some (- fst p)] = Some t' /\
  exists s', at_pos t' [0%nat] s' /\ before s' (pt 2 0) (pt 0 7).
Proof.
  eexists. split; [reflexivity|].
  destruct (C41_band ex [0%nat] [fun p => Some (- fst p)] _ ex_wf eq_refl) as (s & s' & A & A' & _ & _ & B).
  exists s'. split; [exact A'|]. apply B.
  inversion A as [|k p r a cs c s0 K A2]; subst. injection K as <-. inversion A2; subst.
  exists [-2], [0]. split; [repeat constructor|]. split; [repeat constructor|].
  assert (E : forall i j, Z.even i = true -> execs nest (i, j)).
  { intros i j E. exists [Ord i; Ord j; Ord 0].
    apply (trace_one (i, j) (RBand (mkband 2 [true; false] [xi; xj] false)) false [inner] inner (map Ord [i; j]) [Ord 0]);
      [constructor; repeat constructor | reflexivity |].
    apply (trace_seq (i, j) false _ 0 (Node (RFilter ev) false []) []); [reflexivity|].
    apply (trace_one (i, j) (RFilter ev) false [] Leaf [] []); [constructor; exact E | reflexivity | constructor]. }
  split; [apply E; reflexivity|]. split; [apply E; reflexivity|]. left. apply lex_here. reflexivity.
Qed.

(* In tiles of 4 by 4, (2,0) comes before (0,7). *)
Lemma nest_execs : forall i j, Z.even i = true -> execs inner (i, j).
Proof.
  intros i j E. exists [Ord 0].
  apply (trace_seq (i, j) false _ 0 (Node (RFilter ev) false []) []); [reflexivity|].
  apply (trace_one (i, j) (RFilter ev) false [] Leaf [] []); [constructor; exact E | reflexivity | constructor].
Qed.
Example ex_tile : exists t', node_band_tile true true ex [0%nat] [4; 4] = Some t' /\
  exists s', at_pos t' [0%nat] s' /\ before s' (pt 2 0) (pt 0 7).
Proof.
  eexists. split; [reflexivity|].
  destruct (C41_tile true true ex [0%nat] [4; 4] _ ex_wf eq_refl) as (b & a & cs & c & s' & A & K & A' & _ & _ & B).
  exists s'. split; [exact A'|]. apply B.
  inversion A as [|k p r a0 cs0 c0 s0 K0 A2]; subst. injection K0 as <-. inversion A2; subst.
  injection K as <-. exists [2; 0], [0; 7].
  split; [repeat constructor|]. split; [repeat constructor|].
  split; [apply nest_execs; reflexivity|]. split; [apply nest_execs; reflexivity|].
  left. apply lex_next. apply lex_here. reflexivity.
Qed.
(* A tile size has to be positive. *)
Example ex_tile_pos : node_band_tile true true ex [0%nat] [4; 0] = None. Proof. reflexivity. Qed.

(* A dependence from (i,j) to (i,j+1) allows for tiling. *)
Example ex_legal : exists t', node_band_tile false false ex [0%nat] [4; 4] = Some t' /\ before t' (pt 2 3) (pt 2 4).
Proof.
  eexists. split; [reflexivity|].
  apply (C41_tile_legal false false ex [0%nat] [4; 4] _ (fun p q => fst q = fst p /\ snd q = snd p + 1) ex_wf eq_refl);
    [|split; reflexivity|].
  - intros b a cs A i j x y [D1 D2] Vx Vy. inversion A as [|k p r a0 cs0 c0 s0 K0 A2]; subst. injection K0 as <-.
    inversion A2; subst. simpl in Vx, Vy.
    inversion Vx as [|u m z l U V]; subst. inversion V as [|u2 m2 z2 l2 U2 V2]; subst. inversion V2; subst.
    inversion Vy as [|u3 m3 z3 l3 U3 V3]; subst. inversion V3 as [|u4 m4 z4 l4 U4 V4]; subst. inversion V4; subst.
    unfold xi, xj in *. injection U as <-. injection U2 as <-. injection U3 as <-. injection U4 as <-.
    constructor; [lia|]. constructor; [lia | constructor].
  - eexists _, _. split; [apply ex_trace_even; reflexivity|]. split; [apply ex_trace_even; reflexivity|].
    apply tlt_next, tlt_here. reflexivity.
Qed.

Example ex_scale : exists t', node_band_scale ex [0%nat] [3; 5] = Some t' /\ before t' (pt 0 7) (pt 2 0).
Proof.
  eexists. split; [reflexivity|].
  apply (proj2 (C41_scale ex [0%nat] [3; 5] _ ex_wf eq_refl ltac:(repeat constructor))). exact ex_before.
Qed.
(* With a factor zero the order is lost. *)
Example ex_scale_zero : exists t', node_band_scale ex [0%nat] [0; 0] = Some t' /\ ~ before t' (pt 0 7) (pt 2 0).
Proof.
  eexists. split; [reflexivity|].
  set (zb := band_scale (mkband 2 [true; false] [xi; xj] false) [0; 0]).
  intros (u & v & X & Y & L).
  assert (S : forall p u, trace p (Node (RDomain dom) false [Node (RBand zb) false [inner]]) u -> Z.even (fst p) = true ->
            u = [Ord 0; Ord 0; Ord 0]).
  { intros p u0 T E. inversion T as [|r a cs c pre tr P K T1 | |]; subst. injection K as <-. inversion P; subst.
    inversion T1 as [|r a cs c pre tr1 P1 K T2 | |]; subst. injection K as <-. inversion P1 as [b0 zs V| | | | |]; subst.
    inversion V as [|u1 m1 z1 l1 U1 V1]; subst. inversion V1 as [|u2 m2 z2 l2 U2 V2]; subst. inversion V2; subst.
    unfold upa_scale, xi, xj in U1, U2. cbn [option_map] in U1, U2. injection U1 as <-. injection U2 as <-.
    rewrite !Z.mul_0_r. cbn [map app].
    inversion T2 as [|r a cs c pre tr2 P2 K T3 | a cs k c tr2 K T3|]; subst; [inversion P2|].
    destruct k as [|[|[|k]]]; simpl in K; try discriminate K; injection K as <-.
    - inversion T3 as [|r a cs c pre tr3 P3 K T4 | |]; subst. inversion P3; subst. injection K as <-. inversion T4; subst. reflexivity.
    - inversion T3 as [|r a cs c pre tr3 P3 K T4 | |]; subst. inversion P3 as [| | |f F| |]; subst.
      unfold od in F. rewrite <- Z.negb_even, E in F. discriminate F. }
  rewrite (S _ _ X eq_refl), (S _ _ Y eq_refl) in L.
  inversion L as [? ? ? ? L1|? ? ? L1]; subst; [lia|]. inversion L1 as [? ? ? ? L2|? ? ? L2]; subst; [lia|].
  inversion L2 as [? ? ? ? L3|? ? ? L3]; subst; [lia|]. inversion L3.
Qed.

(* The band is moved below the sequence: the even rows come first. *)
Lemma nest_odd : forall i j, Z.odd i = true -> trace (i, j) inner [Ord 1].
Proof.
  intros i j E. apply (trace_seq (i, j) false _ 1 (Node (RFilter od) false [Node (RMark 1) false []]) []); [reflexivity|].
  apply (trace_one (i, j) (RFilter od) false [Node (RMark 1) false []] (Node (RMark 1) false []) [] []); [constructor; exact E | reflexivity |].
  apply (trace_one (i, j) (RMark 1) false [] Leaf [] []); [constructor | reflexivity | constructor].
Qed.
Example ex_sink : exists t', node_band_sink ex [0%nat] = Some t' /\
  exists s', at_pos t' [0%nat] s' /\ before s' (pt 2 0) (pt 1 7).
Proof.
  eexists. split; [reflexivity|].
  destruct (C41_sink ex [0%nat] _ ex_wf eq_refl) as (b & a & cs & c & s' & A & K & A' & _ & _ & B).
  exists s'. split; [exact A'|]. apply B.
  inversion A as [|k p r a0 cs0 c0 s0 K0 A2]; subst. injection K0 as <-. inversion A2; subst.
  injection K as <-. exists [2; 0], [1; 7].
  split; [repeat constructor|]. split; [repeat constructor|].
  left. exists [Ord 0], [Ord 1]. split; [|split; [apply nest_odd; reflexivity | apply tlt_here; reflexivity]].
  apply (trace_seq (pt 2 0) false _ 0 (Node (RFilter ev) false []) []); [reflexivity|].
  apply (trace_one (pt 2 0) (RFilter ev) false [] Leaf [] []); [constructor; reflexivity | reflexivity | constructor].
Qed.

(* A sequence in a sequence. *)
Definition sub0 : uset inst -> uset inst -> bool := fun _ _ => false.
Definition high : uset inst := fun p => negb (snd p <? 5).
Definition ex2 : tree inst :=
  Node (RDomain dom) false
    [Node RSequence false
       [Node (RFilter ev) false [Node RSequence false [Node (RFilter low) false []; Node (RFilter high) false []]];
        Node (RFilter od) false []]].
Example ex2_wf : wf ex2.
Proof. unfold ex2. wf_tac. Qed.
Example ex2_before : before ex2 (pt 2 3) (pt 0 7).
Proof.
  assert (T : forall i j k f, dom (i, j) = true -> ev (i, j) = true -> f (i, j) = true ->
            nth_error [Node (RFilter low) false []; Node (RFilter high) false []] k = Some (Node (RFilter f) false []) ->
            trace (i, j) ex2 [Ord 0; Ord (Z.of_nat k)]).
  { intros i j k f D E F N.
    eapply (trace_one (i, j) (RDomain dom) false _ _ [] [Ord 0; Ord (Z.of_nat k)]); [constructor; exact D | reflexivity |].
    eapply (trace_seq (i, j) false _ 0 _ [Ord (Z.of_nat k)]); [reflexivity|].
    eapply (trace_one (i, j) (RFilter ev) false _ _ [] [Ord (Z.of_nat k)]); [constructor; exact E | reflexivity |].
    eapply (trace_seq (i, j) false _ k _ []); [exact N|].
    eapply (trace_one (i, j) (RFilter f) false _ _ [] []); [constructor; exact F | reflexivity | constructor]. }
  eexists _, _. split; [apply (T 2 3 0%nat low); reflexivity|]. split; [apply (T 0 7 1%nat high); reflexivity|].
  apply tlt_next, tlt_here. reflexivity.
Qed.
Example ex_splice : exists t', node_splice_child sub0 ex2 [0%nat] 0 = Some t' /\ before t' (pt 2 3) (pt 0 7).
Proof.
  eexists. split; [reflexivity|].
  apply (proj2 (C41_splice sub0 ex2 [0%nat] 0 _ ltac:(intros a b E; discriminate E) ex2_wf eq_refl)). exact ex2_before.
Qed.
Example ex_splice_children : exists t', node_splice_children sub0 ex2 [0%nat] = Some t' /\ before t' (pt 2 3) (pt 0 7) /\
  exists a cs, at_pos t' [0%nat] (Node RSequence a cs) /\ length cs = 3%nat.
Proof.
  eexists. split; [reflexivity|]. split.
  - apply (proj2 (proj2 (C41_splice_children sub0 ex2 [0%nat] _ ltac:(intros a b E; discriminate E) ex2_wf eq_refl))).
    exact ex2_before.
  - eexists _, _. split; [econstructor; [reflexivity | constructor] | reflexivity].
Qed.

(* A sequence over the band; the identity is a gist. *)
Definition gist0 : tree inst -> uset inst -> tree inst := fun s _ => s.
Example ex_gist : gist_ok gist0.
Proof. intros s f. split; intros; tauto. Qed.
Example ex_sequence : exists t', node_insert_children gist0 RSequence ex [0%nat] [low; high] = Some t' /\
  exists s', at_pos t' [0%nat] s' /\ before s' (pt 2 0) (pt 0 7).
Proof.
  eexists. split; [reflexivity|].
  destruct (C41_sequence gist0 RSequence ex [0%nat] [low; high] _ ex_wf ex_gist (or_introl eq_refl) eq_refl)
    as (s & s' & A & A' & _ & _ & B).
  exists s'. split; [exact A'|]. apply B.
  inversion A as [|k p r a cs c s0 K A2]; subst. injection K as <-. inversion A2; subst.
  assert (E : forall i j, Z.even i = true -> execs nest (i, j)).
  { intros i j E. exists [Ord i; Ord j; Ord 0].
    apply (trace_one (i, j) (RBand (mkband 2 [true; false] [xi; xj] false)) false [inner] inner (map Ord [i; j]) [Ord 0]);
      [constructor; repeat constructor | reflexivity |].
    apply (trace_seq (i, j) false _ 0 (Node (RFilter ev) false []) []); [reflexivity|].
    apply (trace_one (i, j) (RFilter ev) false [] Leaf [] []); [constructor; exact E | reflexivity | constructor]. }
  exists 0%nat, 1%nat, low, high. repeat split; try (apply E; reflexivity). left. lia.
Qed.

Example ex_delete : exists t1 t2, node_insert ex [0%nat] (RMark 3) = Some t1 /\ node_delete t1 [0%nat] = Some t2 /\ t2 = ex.
Proof. eexists _, _. split; [reflexivity|]. split; reflexivity. Qed.

(* Tile, then split the tiles and sink what is left. *)
Example ex_edits : exists t1 t2 t3, edits sub0 ex t3 /\ node_band_tile true true ex [0%nat] [4; 4] = Some t1 /\
  node_band_split t1 [0%nat] 1 = Some t2 /\ node_band_sink t2 [0%nat; 0%nat] = Some t3 /\ wf t3 /\ anch_ok t3.
Proof.
  eexists _, _, _.
  match goal with |- ?E /\ _ => assert (X : E) end.
  2:{ split; [exact X|]. split; [reflexivity|]. split; [reflexivity|]. split; [reflexivity|].
      exact (C41_invariant sub0 ex _ ex_wf ex_anch X). }
  eapply eds_more; [apply (ed_tile sub0 _ _ true true [0%nat] [4; 4]); reflexivity|].
  eapply eds_more; [apply (ed_split sub0 _ _ [0%nat] 1); reflexivity|].
  eapply eds_more; [apply (ed_sink sub0 _ _ [0%nat; 0%nat]); reflexivity|]. apply eds_none.
Qed.

(* The schedule map of the example; the vector of (2,3) is [2; 3; 0]. *)
Example ex_map : exists um, get_map (fun _ => false) false ex = Some um /\ um_dim um = 3%nat /\
  um_rel um (pt 2 3) [2; 3; 0] /\ empty_ok (I := inst) (fun _ => false) /\ no_set ex.
Proof.
  eexists. split; [reflexivity|]. split; [reflexivity|]. split; [|split].
  - simpl. left. right. exists [2; 3]. split; [|split; reflexivity].
    exists [], [2; 3]. split; [reflexivity|]. split; reflexivity.
  - intros u E. discriminate E.
  - repeat (constructor; try discriminate).
Qed.

(** The field anchored is not maintained when a subtree is removed: after
    isl_schedule_node_cut, the nodes above may still be marked, so that the band
    of the example cannot be tiled although nothing depends on it. *)
Definition ex3 : tree inst :=
  Node (RDomain dom) true
    [Node (RBand (mkband 2 [true; false] [xi; xj] false)) true [Node (RMark 1) true [Node RGuard true []]]].
Theorem C41_anchored_refuted :
  ~ (forall I (t : tree I) p t', wf t -> anch_ok t -> node_cut t p = Some t' -> anch_ok t').
Proof.
  intros H. assert (W : wf ex3) by (unfold ex3; wf_tac).
  assert (A : anch_ok ex3) by (unfold ex3; anch_tac).
  specialize (H inst ex3 [0%nat; 0%nat; 0%nat] _ W A eq_refl).
  apply anch_node in H. destruct H as [_ H]. inversion H as [|x l H1 _]; subst.
  apply anch_node in H1. destruct H1 as [_ H1]. inversion H1 as [|x l H2 _]; subst.
  apply anch_node in H2. destruct H2 as [H2 _]. discriminate H2.
Qed.
Theorem C41_tile_after_cut_refuted :
  ~ (forall I (t : tree I) p t' q b a cs sizes, wf t -> anch_ok t -> node_cut t p = Some t' ->
     subtree t' q = Some (Node (RBand b) a cs) -> ~ has_anchor (Node (RBand b) a cs) ->
     length sizes = b_n b -> Forall (fun z => 0 < z) sizes ->
     exists t'', node_band_tile true true t' q sizes = Some t'').
Proof.
  intros H. assert (W : wf ex3) by (unfold ex3; wf_tac).
  assert (A : anch_ok ex3) by (unfold ex3; anch_tac).
  destruct (H inst ex3 [0%nat; 0%nat; 0%nat] _ [0%nat] _ _ _ [4; 4] W A eq_refl eq_refl) as [t'' Q].
  - intros Q. apply is_anchored_spec in Q. destruct Q as [Q | (c & [<- | []] & Q)]; [discriminate Q|].
    apply is_anchored_spec in Q. destruct Q as [Q | (c & [] & Q)]. discriminate Q.
  - reflexivity.
  - repeat constructor.
  - discriminate Q.
Qed.

Print Assumptions C41_split_partial.
Print Assumptions C41_split_members.
Print Assumptions C41_insert.
Print Assumptions C41_filter.
Print Assumptions C41_band.
Print Assumptions C41_tile.
Print Assumptions C41_tile_legal.
Print Assumptions C41_scale.
Print Assumptions C41_sink.
Print Assumptions C41_splice.
Print Assumptions C41_splice_children.
Print Assumptions C41_sequence.
Print Assumptions C41_delete.
Print Assumptions C41_outside.
Print Assumptions C41_invariant.
Print Assumptions C41_tile_total.
Print Assumptions C41_map.
Print Assumptions C41_anchored_refuted.
Print Assumptions C41_tile_after_cut_refuted.
