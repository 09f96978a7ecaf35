(* Model of schedule trees: the trees and the bands of isl_schedule_tree.c and
   isl_schedule_band.c, and the positions and transformations of
   isl_schedule_node.c.

   Statement instances are the elements of an arbitrary type I.  A union set
   is its membership test, a union piecewise affine expression is the partial
   function that it describes.  A failed call (NULL) is None.

   Not modelled: expansion and extension nodes, the AST build options of a
   band other than the question whether they make the band anchored, spaces,
   identifiers and parameters (a context and a guard are constraints on the
   parameters and the outer bands, they do not appear in the order). *)
From Coq Require Import ZArith List Bool Arith.
Import ListNotations.
Local Open Scope Z_scope.

Notation "'do' x <- e ;; k" := (match e with Some x => k | None => None end)
  (at level 200, x pattern, e at level 100, k at level 200, right associativity).

Section Sched.
Context {I : Type}.

(* isl_union_set: the set of instances, by its membership test.
   isl_union_map_private.h:6-11 (simplified). *)
Definition uset := I -> bool.

(* isl_union_set_intersect, isl_union_map.c:1256-1274 (by its meaning). *)
Definition uset_intersect (a b : uset) : uset := fun i => a i && b i.

(* isl_union_pw_aff: a partial function to the values.
   isl_union_single.c:21-27 (simplified; only integer values appear). *)
Definition upa := I -> option Z.

(* struct isl_schedule_band, isl_schedule_band.h:34-52: the number of members,
   the coincident flags, the partial schedule and the anchored flag. *)
Record band := mkband { b_n : nat; b_coin : list bool; b_mupa : list upa; b_anch : bool }.

(* The contents of the root node of a schedule tree, by type.
   enum isl_schedule_node_type, include/isl/schedule_type.h:9-21, and
   struct isl_schedule_tree, isl_schedule_tree.h:45-66. *)
Inductive root : Type :=
  | RBand (b : band)
  | RContext
  | RDomain (d : uset)
  | RFilter (f : uset)
  | RGuard
  | RMark (id : nat)
  | RSequence
  | RSet.

(* struct isl_schedule_tree, isl_schedule_tree.h:45-66: the root, the field
   anchored and the list of children.  The empty list stands for children
   being NULL, in which case there is an implicit leaf. *)
Inductive tree : Type :=
  | Leaf
  | Node (r : root) (anchored : bool) (children : list tree).

(* ------------------------------------------------------------------ bands *)

(* isl_schedule_band_from_multi_union_pw_aff, isl_schedule_band.c:48-79.  The
   floor is the identity, since the values are integers. *)
Definition band_from_mupa (m : list upa) : band :=
  mkband (length m) (repeat false (length m)) m false.

(* The factors are integers.  isl_union_pw_aff_scale_val,
   isl_union_templ.c:1077-1115 (by its meaning). *)
Definition upa_scale (u : upa) (v : Z) : upa := fun i => option_map (fun x => x * v) (u i).

(* isl_union_pw_aff_scale_down_val followed by isl_union_pw_aff_floor,
   isl_union_templ.c:1124-1152 and isl_aff.c:8148-8152 (by their meaning).  The refusal is the one of
   isl_aff_scale_down_val, isl_aff.c:2062-2089. *)
Definition upa_scale_down_floor (u : upa) (v : Z) : option upa :=
  if v =? 1 then Some u
  else if v <=? 0 then None
  else Some (fun i => option_map (fun x => x / v) (u i)).

(* isl_union_pw_aff_sub and isl_union_pw_aff_add, isl_union_templ.c:641-666:
   defined where both arguments are (by their meaning). *)
Definition upa_op (op : Z -> Z -> Z) (u w : upa) : upa := fun i =>
  match u i, w i with Some x, Some y => Some (op x y) | _, _ => None end.

(* The loop over the members in isl_multi_union_pw_aff_tile,
   isl_schedule_band.c:1096-1110. *)
Fixpoint mupa_tile (scale : bool) (m : list upa) (sizes : list Z) : option (list upa) :=
  match m, sizes with
  | u :: m', v :: sizes' =>
      do u' <- upa_scale_down_floor u v ;;
      let u' := if scale then upa_scale u' v else u' in
      do r <- mupa_tile scale m' sizes' ;;
      Some (u' :: r)
  | _, _ => Some []
  end.

(* isl_schedule_band_tile, isl_schedule_band.c:1118-1132 *)
Definition band_tile (scale : bool) (b : band) (sizes : list Z) : option band :=
  do m <- mupa_tile scale (b_mupa b) sizes ;;
  Some (mkband (b_n b) (b_coin b) m (b_anch b)).

(* Combine two lists position by position (isl_multi_union_pw_aff_bin_op and
   isl_multi_union_pw_aff_fn_multi_val), isl_multi_templ.c:860-880 and
   isl_multi_bin_val_templ.c:46-75. *)
Fixpoint map2 {A B C : Type} (f : A -> B -> C) (l : list A) (l' : list B) : list C :=
  match l, l' with
  | x :: r, y :: r' => f x y :: map2 f r r'
  | _, _ => []
  end.

(* isl_schedule_band_point, isl_schedule_band.c:1146-1178 *)
Definition band_point (shift scale : bool) (b tile : band) (sizes : list Z) : band :=
  if negb shift then b
  else
    let scaled := b_mupa tile in
    let scaled := if negb scale then map2 upa_scale scaled sizes else scaled in
    mkband (b_n b) (b_coin b) (map2 (upa_op Z.sub) (b_mupa b) scaled) (b_anch b).

(* Set one entry of an array. isl_schedule_band.c:1207-1208 *)
Fixpoint upd {A : Type} (k : nat) (x : A) (l : list A) : list A :=
  match k, l with
  | O, _ :: r => x :: r
  | S k', y :: r => y :: upd k' x r
  | _, [] => []
  end.

(* The loop that moves the coincident flags down, isl_schedule_band.c:1207-1208,
   for the next cnt values of i. *)
Fixpoint shift_down (cnt i n : nat) (l : list bool) : list bool :=
  match cnt with
  | O => l
  | S cnt' => shift_down cnt' (S i) n (upd (i - n) (nth i l false) l)
  end.

(* isl_schedule_band_drop, isl_schedule_band.c:1187-1219 *)
Definition band_drop (b : band) (pos n : Z) : option band :=
  if (pos <? 0) || (n <? 0) || (pos + n >? Z.of_nat (b_n b)) then None
  else
    let p := Z.to_nat pos in
    let k := Z.to_nat n in
    Some (mkband (b_n b - k)
                 (shift_down (b_n b - (p + k)) (p + k) k (b_coin b))
                 (firstn p (b_mupa b) ++ skipn (p + k) (b_mupa b))
                 (b_anch b)).

(* isl_schedule_band_scale, isl_schedule_band.c:976-991, for integer factors. *)
Definition band_scale (b : band) (mv : list Z) : band :=
  mkband (b_n b) (b_coin b) (map2 upa_scale (b_mupa b) mv) (b_anch b).

(* isl_schedule_band_shift, isl_schedule_band.c:1037-1068, given the outcome
   subset of the test on the domains. *)
Definition band_shift (subset : bool) (b : band) (sh : list upa) : option band :=
  if negb subset then None
  else Some (mkband (b_n b) (b_coin b) (map2 (upa_op Z.add) (b_mupa b) sh) (b_anch b)).

(* ------------------------------------------------------------------ trees *)

(* The field anchored; a leaf is created with anchored unset.
   isl_schedule_tree_is_subtree_anchored, isl_schedule_tree.c:442-446 *)
Definition anchored (t : tree) : bool :=
  match t with Leaf => false | Node _ a _ => a end.

(* isl_schedule_tree_is_anchored, isl_schedule_tree.c:453-479 *)
Definition is_anchored (r : root) : bool :=
  match r with
  | RBand b => b_anch b
  | RContext | RGuard => true
  | RDomain _ | RFilter _ | RMark _ | RSequence | RSet => false
  end.

(* isl_schedule_tree_update_anchored, isl_schedule_tree.c:487-515 *)
Definition update_anchored (t : tree) : tree :=
  match t with
  | Leaf => Leaf
  | Node r _ cs => Node r (is_anchored r || existsb anchored cs) cs
  end.

(* isl_schedule_tree_from_band and the like, isl_schedule_tree.c:233-434: a
   node without children. *)
Definition from_root (r : root) : tree := Node r (is_anchored r) [].

(* isl_schedule_tree_from_children, isl_schedule_tree.c:521-543 *)
Definition from_children (r : root) (l : list tree) : tree :=
  update_anchored (Node r false l).

(* isl_schedule_tree_reset_children, isl_schedule_tree.c:760-768: the field
   anchored is not updated. *)
Definition reset_children (t : tree) : tree :=
  match t with Leaf => Leaf | Node r a _ => Node r a [] end.

(* isl_schedule_tree_replace_child, isl_schedule_tree.c:809-850.  It is never
   called on a leaf. *)
Definition replace_child (t : tree) (pos : nat) (child : tree) : option tree :=
  match t with
  | Leaf => None
  | Node r a cs =>
      match child with
      | Leaf =>
          match cs, pos with
          | [], O => Some t
          | _, _ => if (length cs =? 1)%nat then Some (reset_children t) else None
          end
      | Node _ _ _ =>
          match cs, pos with
          | [], O => Some (update_anchored (Node r a [child]))
          | _, _ => if (pos <? length cs)%nat
                    then Some (update_anchored (Node r a (upd pos child cs)))
                    else None
          end
      end
  end.

(* isl_schedule_tree_insert_band, isl_schedule_tree_insert_context,
   isl_schedule_tree_insert_domain, isl_schedule_tree_insert_guard and
   isl_schedule_tree_insert_mark, isl_schedule_tree.c:1000-1007 and 988-1007 *)
Definition tree_insert (t : tree) (r : root) : option tree :=
  replace_child (from_root r) 0 t.

(* isl_schedule_tree_insert_filter, isl_schedule_tree.c:937-953 *)
Definition insert_filter (t : tree) (f : uset) : option tree :=
  match t with
  | Node (RFilter g) a cs => Some (Node (RFilter (uset_intersect g f)) a cs)
  | _ => tree_insert t (RFilter f)
  end.

(* isl_schedule_tree_sequence_splice, isl_schedule_tree.c:2140-2179 *)
Definition tree_sequence_splice (t : tree) (pos : nat) (child : tree) : option tree :=
  match t, child with
  | Node RSequence _ cs, Node RSequence _ l =>
      if (pos <? length cs)%nat
      then Some (from_children RSequence (firstn pos cs ++ l ++ skipn (pos + 1) cs))
      else None
  | _, _ => None
  end.

(* isl_schedule_tree_band_tile, isl_schedule_tree.c:2187-2220 *)
Definition tree_band_tile (scale shift : bool) (t : tree) (sizes : list Z) : option tree :=
  match t with
  | Node (RBand b) a cs =>
      do tb <- band_tile scale b sizes ;;
      let pb := band_point shift scale b tb sizes in
      replace_child (Node (RBand tb) a cs) 0 (Node (RBand pb) a cs)
  | _ => None
  end.

(* isl_schedule_tree_band_split, isl_schedule_tree.c:2306-2353 *)
Definition tree_band_split (t : tree) (pos : Z) : option tree :=
  match t with
  | Node (RBand b) a cs =>
      let n := Z.of_nat (b_n b) in
      if (pos <? 0) || (pos >? n) then None
      else
        do cb <- band_drop b 0 pos ;;
        do tb <- band_drop b pos (n - pos) ;;
        replace_child (Node (RBand tb) a cs) 0 (Node (RBand cb) a cs)
  | _ => None
  end.

(* isl_schedule_tree_band_scale, isl_schedule_tree.c:2032-2054 *)
Definition tree_band_scale (t : tree) (mv : list Z) : option tree :=
  match t with
  | Node (RBand b) a cs => Some (Node (RBand (band_scale b mv)) a cs)
  | _ => None
  end.

(* isl_schedule_tree_append_to_leaves, isl_schedule_tree.c:2361-2392.  The
   first branch does not call isl_schedule_tree_update_anchored; in the loop,
   each of the calls of isl_schedule_tree_replace_child does, and the last one
   decides.  It is never called on a leaf. *)
Fixpoint append_to_leaves (t1 t2 : tree) : option tree :=
  match t1 with
  | Leaf => None
  | Node r a [] => Some (Node r a [t2])
  | Node r a cs =>
      do cs' <- (fix loop (l : list tree) : option (list tree) :=
                   match l with
                   | [] => Some []
                   | c :: l' =>
                       do c' <- append_to_leaves c t2 ;;
                       do r' <- loop l' ;;
                       Some (c' :: r')
                   end) cs ;;
      Some (update_anchored (Node r a cs'))
  end.

(* -------------------------------------------------------------- positions *)

(* isl_schedule_node_child, isl_schedule_node.c:1170-1210: the position is
   ignored if the child is an implicit leaf. *)
Definition node_child (t : tree) (pos : nat) : option tree :=
  match t with
  | Leaf => None
  | Node _ _ [] => Some Leaf
  | Node _ _ cs => nth_error cs pos
  end.

(* struct isl_schedule_node, isl_schedule_node_private.h:30-39: a position is
   the list of the child positions on the way from the root; the node points
   to this subtree. *)
Fixpoint subtree (t : tree) (p : list nat) : option tree :=
  match p with
  | [] => Some t
  | k :: p' => do c <- node_child t k ;; subtree c p'
  end.

(* isl_schedule_node_graft_tree and update_ancestors,
   isl_schedule_node.c:2431-2485: each of the ancestors gets its child
   replaced, from the innermost to the outermost. *)
Fixpoint graft (t : tree) (p : list nat) (s : tree) : option tree :=
  match p with
  | [] => Some s
  | k :: p' =>
      do c <- node_child t k ;;
      do c' <- graft c p' s ;;
      replace_child t k c'
  end.

(* isl_schedule_node_get_parent_type, isl_schedule_node.c:135-162 *)
Definition parent (t : tree) (p : list nat) : option tree :=
  match p with [] => None | _ => subtree t (removelast p) end.

(* check_insert, isl_schedule_node.c:2517-2538 *)
Definition check_insert (t : tree) (p : list nat) : bool :=
  match parent t p with
  | Some (Node RSequence _ _) | Some (Node RSet _ _) => false
  | Some (Node _ _ _) => true
  | _ => false
  end.

(* -------------------------------------------------------- transformations *)

(* isl_schedule_node_band_split, isl_schedule_node.c:2097-2109 *)
Definition node_band_split (t : tree) (p : list nat) (pos : Z) : option tree :=
  do s <- subtree t p ;;
  do s' <- tree_band_split s pos ;;
  graft t p s'.

(* isl_schedule_node_band_tile, isl_schedule_node.c:2007-2033.  The test on
   the spaces, check_space_multi_val (isl_schedule_node.c:1818-1837), is the
   one on the numbers of dimensions. *)
Definition node_band_tile (scale shift : bool) (t : tree) (p : list nat) (sizes : list Z)
    : option tree :=
  do s <- subtree t p ;;
  if anchored s then None
  else
    match s with
    | Node (RBand b) _ _ =>
        if negb (length sizes =? b_n b)%nat then None
        else
          do s' <- tree_band_tile scale shift s sizes ;;
          graft t p s'
    | _ => None
    end.

(* isl_schedule_node_band_scale, isl_schedule_node.c:1842-1867 *)
Definition node_band_scale (t : tree) (p : list nat) (mv : list Z) : option tree :=
  do s <- subtree t p ;;
  match s with
  | Node (RBand b) _ _ =>
      if negb (length mv =? b_n b)%nat then None
      else if anchored s then None
      else
        do s' <- tree_band_scale s mv ;;
        graft t p s'
  | _ => None
  end.

(* isl_schedule_node_band_sink, isl_schedule_node.c:2051-2089.  There are no
   expansions, so the contraction is an identity. *)
Definition node_band_sink (t : tree) (p : list nat) : option tree :=
  do s <- subtree t p ;;
  match s with
  | Node (RBand b) a cs =>
      if a then None
      else
        match cs with
        | [] => Some t
        | child :: _ =>
            do s' <- append_to_leaves child (reset_children s) ;;
            graft t p s'
        end
  | _ => None
  end.

(* isl_schedule_node_insert_partial_schedule, isl_schedule_node.c:2547-2575 *)
Definition node_insert_partial_schedule (t : tree) (p : list nat) (m : list upa)
    : option tree :=
  do s <- subtree t p ;;
  if negb (check_insert t p) then None
  else if anchored s then None
  else
    do s' <- tree_insert s (RBand (band_from_mupa m)) ;;
    graft t p s'.

(* isl_schedule_node_insert_context, isl_schedule_node_insert_guard and
   isl_schedule_node_insert_mark, isl_schedule_node.c:2678-2691, 2659-2672 and 2678-2691:
   insert a node of the given type. *)
Definition node_insert (t : tree) (p : list nat) (r : root) : option tree :=
  do s <- subtree t p ;;
  if negb (check_insert t p) then None
  else
    do s' <- tree_insert s r ;;
    graft t p s'.

(* isl_schedule_node_insert_filter, isl_schedule_node.c:2641-2654 *)
Definition node_insert_filter (t : tree) (p : list nat) (f : uset) : option tree :=
  do s <- subtree t p ;;
  if negb (check_insert t p) then None
  else
    do s' <- insert_filter s f ;;
    graft t p s'.

(* The loop of isl_schedule_node_insert_children, isl_schedule_node.c:2721-2735;
   gist is isl_schedule_node_gist. *)
Fixpoint insert_children_list (gist : tree -> uset -> tree) (s : tree) (fs : list uset)
    : option (list tree) :=
  match fs with
  | [] => Some []
  | f :: fs' =>
      do c <- insert_filter (gist s f) f ;;
      do l <- insert_children_list gist s fs' ;;
      Some (c :: l)
  end.

(* isl_schedule_node_insert_children, isl_schedule_node.c:2700-2743, for r the
   sequence (isl_schedule_node_insert_sequence, isl_schedule_node.c:2750-2756)
   or the set (isl_schedule_node_insert_set, isl_schedule_node.c:2763-2769). *)
Definition node_insert_children (gist : tree -> uset -> tree) (r : root)
    (t : tree) (p : list nat) (fs : list uset) : option tree :=
  do s <- subtree t p ;;
  if negb (check_insert t p) then None
  else
    do l <- insert_children_list gist s fs ;;
    graft t p (from_children r l).

(* isl_schedule_node_cut, isl_schedule_node.c:2777-2798 *)
Definition node_cut (t : tree) (p : list nat) : option tree :=
  do _ <- subtree t p ;;
  if negb (check_insert t p) then None
  else graft t p Leaf.

(* isl_schedule_node_delete, isl_schedule_node.c:2808-2855 *)
Definition node_delete (t : tree) (p : list nat) : option tree :=
  do s <- subtree t p ;;
  match s with
  | Leaf => None
  | Node r a cs =>
      match p with
      | [] => None
      | _ =>
          if negb ((length cs =? 0)%nat || (length cs =? 1)%nat) then None
          else if negb (check_insert t p) then None
          else if match r with RBand _ => a | _ => false end then None
          else graft t p (match cs with [] => Leaf | c :: _ => c end)
      end
  end.

(* isl_schedule_node_filter_intersect_filter on each of the children, the loop
   of isl_schedule_node_sequence_splice_child, isl_schedule_node.c:2361-2366,
   and isl_schedule_node.c:2245-2271; subset is isl_union_set_is_subset. *)
Fixpoint intersect_children (subset : uset -> uset -> bool) (f : uset) (l : list tree)
    : option (list tree) :=
  match l with
  | [] => Some []
  | Node (RFilter g) a cs :: l' =>
      let g' := if subset g f then g else uset_intersect g f in
      do r <- intersect_children subset f l' ;;
      Some (Node (RFilter g') a cs :: r)
  | _ => None
  end.

(* isl_schedule_node_sequence_splice_child, isl_schedule_node.c:2341-2374, on
   the tree that the node points to. *)
Definition tree_splice_child (subset : uset -> uset -> bool) (s : tree) (pos : nat)
    : option tree :=
  match s with
  | Node RSequence _ _ =>
      do c <- node_child s pos ;;
      do g <- node_child c 0 ;;
      match c, g with
      | Node (RFilter f) _ _, Node RSequence ga gl =>
          do gl' <- intersect_children subset f gl ;;
          tree_sequence_splice s pos (update_anchored (Node RSequence ga gl'))
      | _, _ => None
      end
  | _ => None
  end.

(* isl_schedule_node_sequence_splice_child, isl_schedule_node.c:2341-2374 *)
Definition node_splice_child (subset : uset -> uset -> bool) (t : tree) (p : list nat)
    (pos : nat) : option tree :=
  do s <- subtree t p ;;
  do s' <- tree_splice_child subset s pos ;;
  graft t p s'.

(* The loop of isl_schedule_node_sequence_splice_children,
   isl_schedule_node.c:2396-2411, for the positions below i. *)
Fixpoint splice_children_loop (subset : uset -> uset -> bool) (t : tree) (p : list nat)
    (i : nat) : option tree :=
  match i with
  | O => Some t
  | S i' =>
      do g <- subtree t (p ++ [i'; O]) ;;
      do t' <- (match g with
                | Node RSequence _ _ => node_splice_child subset t p i'
                | _ => Some t
                end) ;;
      splice_children_loop subset t' p i'
  end.

(* isl_schedule_node_sequence_splice_children, isl_schedule_node.c:2384-2414 *)
Definition node_splice_children (subset : uset -> uset -> bool) (t : tree) (p : list nat)
    : option tree :=
  do s <- subtree t p ;;
  match s with
  | Node RSequence _ cs => splice_children_loop subset t p (length cs)
  | _ => None
  end.

(* ------------------------------------------------------ the schedule map *)

(* A union map from the instances to sequences of integers, with the dimension
   of the range that range_dim reads off (isl_schedule_tree.c:1557-1573). *)
Record umap := mkum { um_dim : nat; um_rel : I -> list Z -> Prop }.

(* isl_union_map_from_domain, isl_union_map.c:2060-2064 (by its meaning), on
   the universe. *)
Definition umap_universe : umap := mkum 0 (fun _ v => v = []).

(* isl_union_map_flat_range_product with the map of a partial schedule,
   isl_schedule_tree.c:1862-1864 (by its meaning). *)
Fixpoint vals (m : list upa) (i : I) : option (list Z) :=
  match m with
  | [] => Some []
  | u :: m' =>
      do x <- u i ;;
      do l <- vals m' i ;;
      Some (x :: l)
  end.

(* isl_schedule_tree.c:1862-1864 *)
Definition umap_band (o : umap) (m : list upa) : umap :=
  mkum (um_dim o + length m)
       (fun i v => exists w x, um_rel o i w /\ vals m i = Some x /\ v = w ++ x).

(* isl_union_map_flat_range_product with the map of a filter or a domain to a
   constant, isl_schedule_tree.c:1784-1790 and 1868-1870 (by its meaning). *)
Definition umap_filter (o : umap) (f : uset) (x : list Z) : umap :=
  mkum (um_dim o + length x)
       (fun i v => exists w, um_rel o i w /\ f i = true /\ v = w ++ x).

(* append_range, isl_schedule_tree.c:1577-1599 *)
Definition append_range (u : umap) (extra : nat) : umap :=
  mkum (um_dim u + extra)
       (fun i v => exists w, um_rel u i w /\ v = w ++ repeat 0 extra).

(* isl_union_map_union, isl_union_map.c:340-361 (by its meaning). *)
Definition umap_union (u w : umap) : umap :=
  mkum (um_dim w) (fun i v => um_rel u i v \/ um_rel w i v).

(* The end of the body of the loop of subtree_schedule_extend_from_children,
   isl_schedule_tree.c:1793-1812: add the piece ui to the result u of
   dimension dim. *)
Definition add_piece (empty : umap -> bool) (u : umap) (dim : nat) (ui : umap) : umap * nat :=
  if empty ui then (u, dim)
  else
    let dim_i := um_dim ui in
    if (dim <? dim_i)%nat then (umap_union (append_range u (dim_i - dim)) ui, dim_i)
    else if (dim_i <? dim)%nat then (umap_union u (append_range ui (dim - dim_i)), dim)
    else (umap_union u ui, dim).

(* subtree_schedule_extend, subtree_schedule_extend_child and
   subtree_schedule_extend_from_children, isl_schedule_tree.c:1731-1820; empty
   is isl_union_map_is_empty, sep the option schedule_separate_components.
   The result u carries the dimension dim that the loop maintains. *)
Fixpoint extend (empty : umap -> bool) (sep : bool) (t : tree) (outer : umap) : option umap :=
  match t with
  | Leaf => None
  | Node r _ cs =>
      let extend_child (l : list tree) (o : umap) : option umap :=
        match l with [] => Some o | c :: _ => extend empty sep c o end in
      match r with
      | RContext | RGuard | RMark _ => extend_child cs outer
      | RBand b =>
          if (b_n b =? 0)%nat then extend_child cs outer
          else extend_child cs (umap_band outer (b_mupa b))
      | RDomain d => extend_child cs (umap_filter outer d [])
      | RFilter f => extend_child cs (umap_filter outer f [])
      | RSequence | RSet =>
          let n := length cs in
          let separate := (1 <? n)%nat &&
                          (match r with RSequence => true | _ => false end || sep) in
          match cs with
          | [] => None
          | _ =>
              (fix loop (l : list tree) (v : Z) (u : umap) (dim : nat) : option umap :=
                 match l with
                 | [] => Some (mkum dim (um_rel u))
                 | Node (RFilter f) _ gs :: l' =>
                     let mv := if separate then [v] else [] in
                     let o := umap_filter outer f mv in
                     do ui <- (match gs with
                               | [] => Some o
                               | g :: _ => extend empty sep g o
                               end) ;;
                     let '(u, dim) := add_piece empty u dim ui in
                     loop l' (v + 1) u dim
                 | _ => None
                 end) cs 0 (mkum 0 (fun _ _ => False)) (if separate then 1 else 0)%nat
          end
      end
  end.

(* isl_schedule_tree_first_schedule_descendant with domain_less,
   isl_schedule_tree.c:1612-1639 *)
Fixpoint first_schedule_descendant (t : tree) : tree :=
  let down (cs : list tree) : tree :=
    match cs with [] => Leaf | c :: _ => first_schedule_descendant c end in
  match t with
  | Leaf => Leaf
  | Node r _ cs =>
      match r with
      | RBand b => if (b_n b =? 0)%nat then down cs else t
      | RContext | RGuard | RMark _ => down cs
      | RDomain _ | RFilter _ | RSequence | RSet => t
      end
  end.

(* isl_schedule_node_get_subtree_schedule_union_map,
   isl_schedule_node.c:935-956, and
   isl_schedule_tree_get_subtree_schedule_union_map,
   isl_schedule_tree.c:2018-2027.  The code starts from the universe of the
   spaces of the root; there are no spaces in the model. *)
Definition subtree_schedule (empty : umap -> bool) (sep : bool) (t : tree) : option umap :=
  match first_schedule_descendant t with
  | Leaf => Some umap_universe
  | t' => extend empty sep t' umap_universe
  end.

(* isl_schedule_get_map, isl_schedule.c:457-476 *)
Definition get_map (empty : umap -> bool) (sep : bool) (t : tree) : option umap :=
  match t with
  | Node (RDomain _) _ _ =>
      do c <- node_child t 0 ;;
      subtree_schedule empty sep c
  | _ => None
  end.

End Sched.

Arguments tree : clear implicits.
Arguments root : clear implicits.
Arguments band : clear implicits.
Arguments upa : clear implicits.
Arguments uset : clear implicits.
Arguments umap : clear implicits.
