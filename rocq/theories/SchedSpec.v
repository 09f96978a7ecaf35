(* Specification of the order in which a schedule tree executes the statement
   instances, independently of the functions on trees.

   An instance that is executed takes a path from the root of the tree to one
   of the leaves.  The steps of this path are recorded in its trace: the
   values of the members of the bands and the positions in the sequences,
   which are ordered, and the positions in the sets, which are not. *)
From Coq Require Import ZArith List Bool.
From Verif Require Import SchedModel.
Import ListNotations.
Local Open Scope Z_scope.

Inductive step : Type :=
  | Ord (z : Z)      (* a value of a band member, a position in a sequence *)
  | Alt (k : nat).   (* the position in a set, without order *)

(* The first difference is between ordered steps, and is in the right order. *)
Inductive tlt : list step -> list step -> Prop :=
  | tlt_here x y u v : x < y -> tlt (Ord x :: u) (Ord y :: v)
  | tlt_next e u v : tlt u v -> tlt (e :: u) (e :: v).

(* Lexicographic order on vectors. *)
Inductive lexlt : list Z -> list Z -> Prop :=
  | lex_here x y u v : x < y -> lexlt (x :: u) (y :: v)
  | lex_next x u v : lexlt u v -> lexlt (x :: u) (x :: v).

Section Spec.
Context {I : Type}.

(* The child at a position; a node without explicit children has a leaf,
   unless it is a sequence or a set. *)
Definition kid (r : root I) (cs : list (tree I)) (k : nat) : option (tree I) :=
  match r, cs, k with
  | RSequence, _, _ => nth_error cs k
  | RSet, _, _ => nth_error cs k
  | _, [], O => Some Leaf
  | _, _, _ => nth_error cs k
  end.

(* The values of the members of a band. *)
Inductive values (i : I) : list (upa I) -> list Z -> Prop :=
  | values_nil : values i [] []
  | values_cons u m x l : u i = Some x -> values i m l -> values i (u :: m) (x :: l).

(* The part of the trace due to a node with a single child. *)
Inductive part (i : I) : root I -> list step -> Prop :=
  | part_band b zs : values i (b_mupa b) zs -> part i (RBand b) (map Ord zs)
  | part_context : part i RContext []
  | part_domain d : d i = true -> part i (RDomain d) []
  | part_filter f : f i = true -> part i (RFilter f) []
  | part_guard : part i RGuard []
  | part_mark id : part i (RMark id) [].

Inductive trace (i : I) : tree I -> list step -> Prop :=
  | trace_leaf : trace i Leaf []
  | trace_one r a cs c pre tr :
      part i r pre -> kid r cs 0 = Some c -> trace i c tr ->
      trace i (Node r a cs) (pre ++ tr)
  | trace_seq a cs k c tr :
      nth_error cs k = Some c -> trace i c tr ->
      trace i (Node RSequence a cs) (Ord (Z.of_nat k) :: tr)
  | trace_set a cs k c tr :
      nth_error cs k = Some c -> trace i c tr ->
      trace i (Node RSet a cs) (Alt k :: tr).

(* The instance is executed by the tree. *)
Definition execs (t : tree I) (i : I) : Prop := exists tr, trace i t tr.

(* The tree executes i before j. *)
Definition before (t : tree I) (i j : I) : Prop :=
  exists u v, trace i t u /\ trace j t v /\ tlt u v.

(* The tree does not separate i and j: same leaf, same values on the way. *)
Definition tied (t : tree I) (i j : I) : Prop :=
  exists u, trace i t u /\ trace j t u.

(* Two trees execute the same instances in the same order. *)
Definition same_order (t t' : tree I) : Prop :=
  (forall i, execs t i <-> execs t' i) /\
  (forall i j, before t i j <-> before t' i j).

(* The trees differ at most in the subtree at the given position (and in
   whether they are anchored). *)
Inductive same_outside : list nat -> tree I -> tree I -> Prop :=
  | so_here t t' : same_outside [] t t'
  | so_in k p r a a' cs cs' c c' :
      (forall k', k' <> k -> nth_error cs k' = nth_error cs' k') ->
      kid r cs k = Some c -> kid r cs' k = Some c' -> same_outside p c c' ->
      same_outside (k :: p) (Node r a cs) (Node r a' cs').

(* The subtree at a position. *)
Inductive at_pos : tree I -> list nat -> tree I -> Prop :=
  | at_here t : at_pos t [] t
  | at_in k p r a cs c s :
      kid r cs k = Some c -> at_pos c p s -> at_pos (Node r a cs) (k :: p) s.

(* The fields of a band agree on the number of members; the array of flags may
   be longer. *)
Definition band_ok (r : root I) : Prop :=
  forall b, r = RBand b -> length (b_mupa b) = b_n b /\ (b_n b <= length (b_coin b))%nat.

(* Sequences and sets have children, which are filters, and other nodes have
   at most one child (see isl_schedule_tree.h). *)
Inductive wf : tree I -> Prop :=
  | wf_leaf : wf Leaf
  | wf_one r a cs :
      r <> RSequence -> r <> RSet -> band_ok r -> (length cs <= 1)%nat -> Forall wf cs ->
      wf (Node r a cs)
  | wf_many r a cs :
      r = RSequence \/ r = RSet -> cs <> [] -> Forall wf cs ->
      Forall (fun c => exists f b l, c = Node (RFilter f) b l) cs ->
      wf (Node r a cs).

(* There is a node in the tree that depends on its position. *)
Inductive has_anchor : tree I -> Prop :=
  | ha_band b a cs : b_anch b = true -> has_anchor (Node (RBand b) a cs)
  | ha_context a cs : has_anchor (Node RContext a cs)
  | ha_guard a cs : has_anchor (Node RGuard a cs)
  | ha_child r a cs c : List.In c cs -> has_anchor c -> has_anchor (Node r a cs).

(* The field anchored says of each of the subtrees whether this is so. *)
Inductive anch_ok : tree I -> Prop :=
  | ao_leaf : anch_ok Leaf
  | ao_node r a cs :
      (a = true <-> has_anchor (Node r a cs)) -> Forall anch_ok cs -> anch_ok (Node r a cs).

(* There are no sets in the tree. *)
Inductive no_set : tree I -> Prop :=
  | ns_leaf : no_set Leaf
  | ns_node r a cs : r <> RSet -> Forall no_set cs -> no_set (Node r a cs).

(* Contract of isl_schedule_node_gist: the order on the instances of the
   context does not change. *)
Definition gist_ok (gist : tree I -> uset I -> tree I) : Prop :=
  forall s f,
    (forall i, f i = true -> (execs (gist s f) i <-> execs s i)) /\
    (forall i j, f i = true -> f j = true -> (before (gist s f) i j <-> before s i j)).

(* Contract of isl_union_set_is_subset (the other direction is not needed). *)
Definition subset_ok (subset : uset I -> uset I -> bool) : Prop :=
  forall a b, subset a b = true -> forall i, a i = true -> b i = true.

(* Contract of isl_union_map_is_empty (the other direction is not needed). *)
Definition empty_ok (empty : umap I -> bool) : Prop :=
  forall u, empty u = true -> forall i v, ~ um_rel u i v.

(* The coordinates of a tile, for sizes that are positive. *)
Definition tile_of (sizes zs : list Z) : list Z :=
  map (fun p => fst p / snd p) (combine zs sizes).

(* The order of a band with members m on top of the tree c. *)
Definition banded (m : list (upa I)) (c : tree I) (i j : I) : Prop :=
  exists x y, values i m x /\ values j m y /\ execs c i /\ execs c j /\
    (lexlt x y \/ (x = y /\ before c i j)).

(* The order of a tiled band: by tile, then by the band, then by the child. *)
Definition tiled (m : list (upa I)) (sizes : list Z) (c : tree I) (i j : I) : Prop :=
  exists x y, values i m x /\ values j m y /\ execs c i /\ execs c j /\
    (lexlt (tile_of sizes x) (tile_of sizes y) \/
     (tile_of sizes x = tile_of sizes y /\
      (lexlt x y \/ (x = y /\ before c i j)))).

(* The order of a band that is moved to the leaves of its child. *)
Definition sunk (m : list (upa I)) (c : tree I) (i j : I) : Prop :=
  exists x y, values i m x /\ values j m y /\
    (before c i j \/ (tied c i j /\ lexlt x y)).

(* The order of a sequence of the instances of the filters, each in the order
   of the tree s. *)
Definition sequenced (s : tree I) (fs : list (uset I)) (i j : I) : Prop :=
  exists k l f g, nth_error fs k = Some f /\ nth_error fs l = Some g /\
    f i = true /\ g j = true /\ execs s i /\ execs s j /\
    ((k < l)%nat \/ (k = l /\ before s i j)).

(* The same, without order between the filters. *)
Definition alternated (s : tree I) (fs : list (uset I)) (i j : I) : Prop :=
  exists k f, nth_error fs k = Some f /\ f i = true /\ f j = true /\ before s i j.

(* The nodes that do not affect the order. *)
Definition silent (r : root I) : Prop :=
  match r with RContext | RGuard | RMark _ => True | _ => False end.

(* One of the transformations that do not remove subtrees. *)
Inductive edit (subset : uset I -> uset I -> bool) (t t' : tree I) : Prop :=
  | ed_split p pos : node_band_split t p pos = Some t' -> edit subset t t'
  | ed_tile scale shift p sizes : node_band_tile scale shift t p sizes = Some t' -> edit subset t t'
  | ed_scale p mv : node_band_scale t p mv = Some t' -> edit subset t t'
  | ed_sink p : node_band_sink t p = Some t' -> edit subset t t'
  | ed_band p m : node_insert_partial_schedule t p m = Some t' -> edit subset t t'
  | ed_insert p r : silent r -> node_insert t p r = Some t' -> edit subset t t'
  | ed_filter p f : node_insert_filter t p f = Some t' -> edit subset t t'
  | ed_splice p pos : node_splice_child subset t p pos = Some t' -> edit subset t t'.

(* Any sequence of these transformations. *)
Inductive edits (subset : uset I -> uset I -> bool) : tree I -> tree I -> Prop :=
  | eds_none t : edits subset t t
  | eds_more t t1 t2 : edit subset t t1 -> edits subset t1 t2 -> edits subset t t2.

End Spec.
