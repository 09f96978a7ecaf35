(** Model of the gist operation, isl_map_simplify.c:1975-3731: simplifying a
    basic map or a map in the context of another one.

    Arguments of the model, see GistSpec.v for what is assumed about them: what
    the tableau knows about the constraints (isl_tab_detect_implicit_equalities
    and isl_tab_detect_redundant on a tableau with frozen constraints), the
    detection of implicit equalities, the emptiness test, the reduction of the
    stride constraints (gist_strides) and, for maps, the subset test and the
    hulls.  The alignment of the parameters is in ReorderModel.v; the flags
    NO_IMPLICIT and NO_REDUNDANT are not modelled. *)
From Coq Require Import ZArith List Bool Arith.
From Verif Require Import SeqModel MatModel SortModel BMapModel BDupModel LocalModel ReorderModel BElimModel SimpModel SetModel SubModel EqModel.
Import ListNotations.
Open Scope Z_scope.

(** ** groups of variables *)

(** the inner loop of update_groups, isl_map_simplify.c:2242-2243 *)
Fixpoint resolve (fuel : nat) (g : list Z) (j : nat) : res (list Z) :=
  let x := nth j g 0 in
  if (0 <=? x) && negb (nth (Z.to_nat x) g 0 =? x) then
    match fuel with
    | O => Div
    | S fuel' => resolve fuel' (zupd g j (nth (Z.to_nat x) g 0)) j
    end
  else Ok g.
(** update_groups, isl_map_simplify.c:2234-2253, on the variables from [j] on;
    [min] is the smallest group so far *)
Fixpoint update_groups_loop (dim j : nat) (g : list Z) (min : Z) (c : row) : res (list Z) :=
  match c with
  | [] => Ok g
  | x :: c' =>
    if x =? 0 then update_groups_loop dim (S j) g min c'
    else
      let! g := resolve (S dim) g j in
      let y := nth j g 0 in
      if y =? min then update_groups_loop dim (S j) g min c'
      else if y <? min then
        let g := if (0 <=? min) && (min <? Z.of_nat dim) then zupd g (Z.to_nat min) y else g in
        update_groups_loop dim (S j) g y c'
      else update_groups_loop dim (S j) (zupd g (Z.to_nat y) min) min c'
  end.
Definition update_groups (dim : nat) (g : list Z) (c : row) : res (list Z) :=
  update_groups_loop dim 0 g (Z.of_nat dim) c.
(** the loops over the constraints, isl_map_simplify.c:2310-2313 *)
Fixpoint group_rows (dim : nat) (g : list Z) (l : list row) : res (list Z) :=
  match l with
  | [] => Ok g
  | r :: t => let! g := update_groups dim g (tl r) in group_rows dim g t
  end.

(** is_related, isl_map_simplify.c:2173-2185, on a constraint with its constant term *)
Definition is_related (c : row) (relevant : list bool) : bool :=
  existsb (fun i => nth i relevant false && negb (nth (1 + i) c 0 =? 0)) (seq 0 (length relevant)).
(** the loops of drop_unrelated_constraints, isl_map_simplify.c:2205-2217, on
    the constraints below position [i] *)
Fixpoint drop_unrelated_eq (i : nat) (relevant : list bool) (b : bmap) : bmap :=
  match i with
  | O => b
  | S i' => drop_unrelated_eq i' relevant (if is_related (nth i' (b_eq b) []) relevant then b else drop_equality b i')
  end.
Fixpoint drop_unrelated_ineq (i : nat) (relevant : list bool) (b : bmap) : bmap :=
  match i with
  | O => b
  | S i' => drop_unrelated_ineq i' relevant (if is_related (nth i' (b_ineq b) []) relevant then b else drop_inequality b i')
  end.
(** drop_unrelated_constraints, isl_map_simplify.c:2190-2220 *)
Definition drop_unrelated (b : bmap) (relevant : list bool) : bmap :=
  if forallb (fun x => x) relevant then b
  else
    let b := drop_unrelated_eq (length (b_eq b)) relevant b in
    drop_unrelated_ineq (length (b_ineq b)) relevant b.
(** isl_basic_map_drop_unrelated_constraints, isl_map_simplify.c:2290-2326;
    [involved] tells for which variables the group is -1 *)
Definition drop_unrelated_constraints (b : bmap) (involved : list bool) : res bmap :=
  let dim := total b in
  let g := map (fun i => if nth i involved false then -1 else Z.of_nat i) (seq 0 dim) in
  if forallb (fun x => x <? 0) g then Ok b
  else
    let! g := group_rows dim g (b_eq b) in
    let! g := group_rows dim g (b_ineq b) in
    let! g := Ok (fold_left (fun g i => if 0 <=? nth i g 0 then zupd g i (nth (Z.to_nat (nth i g 0)) g 0) else g) (seq 0 dim) g) in
    Ok (drop_unrelated b (map (fun x => x =? -1) g)).
(** whether a variable appears in one of the constraints, the inner loops of
    isl_map_simplify.c:2355-2366 and of isl_map_simplify.c:2403-2408 *)
Definition appears (l : list row) (i : nat) : bool := existsb (fun r => negb (nth (1 + i) r 0 =? 0)) l.
(** drop_irrelevant_constraints, isl_map_simplify.c:2338-2370 *)
Definition drop_irrelevant (ctx s : bmap) : res bmap :=
  drop_unrelated_constraints ctx (map (fun i => appears (b_eq s) i || appears (b_ineq s) i) (seq 0 (b_out s))).
(** the rows of which the entry of row is not negative *)
Fixpoint kept (ineq : list row) (mk : list bool) : list row :=
  match ineq, mk with
  | r :: t, m :: mk' => if m then kept t mk' else r :: kept t mk'
  | _, _ => []
  end.
(** drop_irrelevant_constraints_marked, isl_map_simplify.c:2384-2414 *)
Definition drop_irrelevant_marked (ctx : bmap) (ineq : list row) (mk : list bool) : res bmap :=
  drop_unrelated_constraints ctx (map (appears (kept ineq mk)) (seq 0 (b_out ctx))).

(** ** gist of sets without local variables *)

Section Params.
(** the arguments of isl_basic_map_simplify in SimpModel.v and of the
    operations in SetModel.v *)
Variable same_ids : bmap -> bool.
Variable hash : row -> nat.
Variable no_redundant : bmap -> bool.
Variable tab : bmap -> bool * list kind.
Variable fuel : nat.
Variable drop_redundant_divs : bmap -> res bmap.
Variable is_empty : bmap -> bool.
(** the tableau of uset_gist_full, isl_map_simplify.c:2569-2587, for a set of
    which the first inequalities are frozen: whether it is empty and what it
    knows about the inequalities *)
Variable gist_tab : bmap -> nat -> bool * list kind.
(** isl_basic_map_detect_equalities, isl_affine_hull.c:903-948 *)
Variable detect_equalities : bmap -> res bmap.
(** gist_strides, isl_map_simplify.c:3214-3238 *)
Variable gist_strides : bmap -> bmap -> res bmap.

(** setup_constraint_index, isl_map_simplify.c:771-785, on the inequalities [l] *)
Fixpoint setup_index (n : nat) (t : list (option nat)) (l : list row) (k : nat) : res (list (option nat)) :=
  match n with
  | O => Ok t
  | S n' =>
    let! h := hash_index hash t l k (tl (nth k l [])) in
    setup_index n' (lset t h (Some k)) l (S k)
  end.
Definition constraint_index (l : list row) : res (list (option nat)) :=
  setup_index (length l) (repeat None (index_size (length l))) l 0.
(** constraint_index_is_redundant, isl_map_simplify.c:800-809; no entry of the
    index is at position [length l] *)
Definition is_redundant (t : list (option nat)) (l : list row) (r : row) : res bool :=
  let! h := hash_index hash t l (length l) (tl r) in
  match nth h t None with
  | None => Ok false
  | Some j => Ok (hd 0 (nth j l []) <=? hd 0 r)
  end.
(** the loop of mark_shifted_constraints, isl_map_simplify.c:2075-2090 *)
Fixpoint mark_loop (t : list (option nat)) (l ineq : list row) : res (list bool) :=
  match ineq with
  | [] => Ok []
  | r :: ineq' =>
    let! m := if is_constant r && (0 <=? hd 0 r) then Ok true else is_redundant t l r in
    let! mk := mark_loop t l ineq' in
    Ok (m :: mk)
  end.
(** mark_shifted_constraints, isl_map_simplify.c:2055-2096; true for an entry -1 *)
Definition mark_shifted (ineq : list row) (ctx : bmap) : res (list bool) :=
  if Nat.eqb (length (b_ineq ctx)) 0 then Ok (repeat false (length ineq))
  else
    let! t := constraint_index (b_ineq ctx) in
    mark_loop t (b_ineq ctx) ineq.
(** the loop of remove_shifted_constraints, isl_map_simplify.c:2112-2125 *)
Fixpoint remove_loop (n : nat) (t : list (option nat)) (l : list row) (k : nat) (s : bmap) : res bmap :=
  match n with
  | O => if Nat.leb (length (b_ineq s)) k then Ok s else Div
  | S n' =>
    if Nat.leb (length (b_ineq s)) k then Ok s
    else
      let! red := is_redundant t l (nth k (b_ineq s) []) in
      if red then remove_loop n' t l k (drop_inequality s k) else remove_loop n' t l (S k) s
  end.
(** remove_shifted_constraints, isl_map_simplify.c:2098-2131 *)
Definition remove_shifted (s ctx : bmap) : res bmap :=
  if Nat.eqb (length (b_ineq ctx)) 0 then Ok s
  else
    let! t := constraint_index (b_ineq ctx) in
    remove_loop (S (length (b_ineq s))) t (b_ineq ctx) 0 s.

(** the entries of row: None for -1, otherwise a position in the tableau,
    isl_map_simplify.c:2576-2583 *)
Fixpoint number_rows (r : nat) (mk : list bool) : list (option nat) :=
  match mk with
  | [] => []
  | true :: t => None :: number_rows r t
  | false :: t => Some r :: number_rows (S r) t
  end.
(** update_ineq, isl_map_simplify.c:2442-2478; without tableau if [t] is None *)
Definition row_kind (t : option (bool * list kind)) (o : option nat) : kind :=
  match o, t with
  | None, _ => Redundant
  | Some _, None => Other
  | Some r, Some (_, ks) => nth r ks Other
  end.
Definition is_equality (k : kind) : bool := match k with Equality => true | _ => false end.
Definition update_ineq (s : bmap) (rows : list (option nat)) (t : option (bool * list kind)) : res bmap :=
  if match t with Some (true, _) => true | _ => false end then Ok (set_to_empty s)
  else
    let ks := map (row_kind t) rows in
    let s := update_loop (length (b_ineq s)) ks s in
    let! s := if existsb is_equality ks then (let! x := gauss s in Ok (fst x)) else Ok s in
    Ok (finalize s).
(** isl_inequality_negate, isl_map.c:3417-3433, on the row *)
Definition negate_row (r : row) : row := zupd (seq_neg r) 0 (hd 0 (seq_neg r) - 1).
Definition inequality_negate (b : bmap) (pos : nat) : bmap :=
  set_ineq b (lset (b_ineq b) pos (negate_row (nth pos (b_ineq b) []))).
(** the loop isl_map_simplify.c:2588-2606, on the inequalities below position [i] *)
Fixpoint test_loop (i : nat) (rows : list (option nat)) (combined : bmap) (e : bool) (ks : list kind) : res (list kind) :=
  match i with
  | O => Ok ks
  | S i' =>
    match nth i' rows None with
    | None => test_loop i' rows combined e ks
    | Some r =>
      match nth r ks Other with
      | Redundant => test_loop i' rows combined e ks
      | k =>
        let! test := update_from_tab (inequality_negate combined r) e ks in
        (* a constraint that is known to be an equality remains one *)
        let ks := if is_empty test then (match k with Equality => ks | _ => lset ks r Redundant end) else ks in
        test_loop i' rows combined e ks
      end
    end
  end.
(** uset_gist_full, isl_map_simplify.c:2530-2623 *)
Definition uset_gist_full (s : bmap) (ineq : list row) (ctx : bmap) : res bmap :=
  if Nat.eqb (length (b_ineq s)) 0 || plain_universe ctx then Ok s
  else
    let! mk := mark_shifted ineq ctx in
    let f := length (b_ineq ctx) in
    if forallb (fun m => m) mk then update_ineq s (number_rows f mk) None
    else
      let! ctx := drop_irrelevant_marked ctx ineq mk in
      let f := length (b_ineq ctx) in
      let rows := number_rows f mk in
      if plain_universe ctx then update_ineq s rows None
      else
        let combined := set_ineq ctx (b_ineq ctx ++ kept ineq mk) in
        let '(e, ks) := gist_tab combined f in
        let ks := map (fun i => nth i ks Other) (seq 0 (length (b_ineq combined))) in
        let! ks := test_loop (length (b_ineq s)) rows combined e ks in
        update_ineq s rows (Some (e, ks)).
(** uset_gist_uncompressed, isl_map_simplify.c:2648-2655 *)
Definition uset_gist_uncompressed (s ctx : bmap) : res bmap := uset_gist_full s (b_ineq s) ctx.
(** isl_basic_set_empty, isl_map.c:6275-6281; replace_by_empty, isl_map_simplify.c:2659-2667 *)
Definition empty_set (n : nat) : bmap := set_to_empty (fresh_map 0 0 n).
(** preimage, isl_mat.c:1322-1348: the constraints in terms of the [nw]
    variables of the compressed space; isl_basic_set_preimage, isl_mat.c:1360-1414 *)
Definition preimage (s : bmap) (T : mat) (nw : nat) : res bmap :=
  simp_fin hash no_redundant tab fuel
    (mkb 0 0 nw (mat_product (length (b_eq s)) (1 + nw) (b_eq s) T) (mat_product (length (b_ineq s)) (1 + nw) (b_ineq s) T) []
         (b_rat s) (b_empty s) (b_nd s)).
(** the loop of uset_gist_compressed, isl_map_simplify.c:2727-2744, on one
    inequality and its transformed version *)
Definition tighten (r w : row) : row * row :=
  let g := seq_gcd (tl w) in
  if (g =? 0) || (g =? 1) then (r, w)
  else
    let rem := hd 0 w mod g in
    (zupd r 0 (hd 0 r - rem), (hd 0 w / g) :: seq_scale_down (tl w) g).
(** uset_gist_compressed, isl_map_simplify.c:2699-2753 *)
Definition uset_gist_compressed (s ctx : bmap) (T : mat) (nw : nat) : res bmap :=
  let ineq := mat_product (length (b_ineq s)) (1 + nw) (b_ineq s) T in
  let! ctx := preimage ctx T nw in
  if b_empty ctx then Ok (empty_set (b_out s))
  else
    let l := map (fun p => tighten (fst p) (snd p)) (combine (b_ineq s) ineq) in
    uset_gist_full (set_ineq s (map fst l)) (map snd l) ctx.
(** isl_basic_map_plain_affine_hull, isl_affine_hull.c:971-979 *)
Definition plain_affine_hull (b : bmap) : bmap := finalize (set_ineq b []).
(** project_onto_involved, isl_map_simplify.c:2757-2778, from variable [i] on *)
Fixpoint project_loop (n i : nat) (s template : bmap) : res bmap :=
  match n with
  | O => Ok s
  | S n' =>
    let! s := if appears (b_eq template) i || appears (b_ineq template) i then Ok s else eliminate_vars hash no_redundant tab s i 1 in
    project_loop n' (S i) s template
  end.
Definition project_onto_involved (s template : bmap) : res bmap := project_loop (b_out template) 0 s template.
(** reduced_using_equalities, isl_map_simplify.c:1981-1999, with the same array
    as source and as destination *)
Fixpoint reduce_row (n : nat) (eqs : list row) (dim : nat) (r : row) : row :=
  match n with
  | O => r
  | S d =>
    if nth (1 + d) r 0 =? 0 then reduce_row d eqs dim r
    else
      match elim_row eqs dim d None with
      | None => reduce_row d eqs dim r
      | Some e => reduce_row d eqs dim (fst (seq_elim r e (1 + d) 1))
      end
  end.
(** isl_basic_set_reduce_using_equalities, isl_map_simplify.c:2008-2047 *)
Definition reduce_using_equalities (s ctx : bmap) : res bmap :=
  if Nat.eqb (length (b_eq ctx)) 0 then Ok s
  else
    let f := reduce_row (b_out s) (b_eq ctx) (b_out s) in
    simp_fin hash no_redundant tab fuel (set_ineq (set_eq s (map f (b_eq s))) (map f (b_ineq s))).
(** uset_gist, isl_map_simplify.c:2807-2867 *)
Definition uset_gist (s ctx : bmap) : res bmap :=
  let n := total s in
  let! ctx := drop_irrelevant ctx s in
  let! s := detect_equalities s in
  let! ctx := detect_equalities ctx in
  let! aff := intersect hash no_redundant tab fuel (plain_affine_hull s) (plain_affine_hull ctx) in
  if b_empty aff then Ok aff
  else
    let! s := sort_constraints s in
    if Nat.eqb (length (b_eq aff)) 0 then uset_gist_uncompressed s ctx
    else
      let! T := variable_compression (length (b_eq aff)) n (b_eq aff) in
      match T with
      | None => Ok (empty_set (b_out s))
      | Some (T, _) =>
        let! hull := detect_equalities ctx in
        let! affc := project_onto_involved (plain_affine_hull hull) s in
        let! s := uset_gist_compressed s ctx T (n - length (b_eq aff)) in
        reduce_using_equalities s affc
      end.

(** ** basic maps *)

(** isl_basic_map_underlying_set, isl_map.c:5619-5646 *)
Definition underlying (b : bmap) : bmap :=
  mkb 0 0 (total b) (b_eq b) (b_ineq b) [] (b_rat b) (b_empty b) (b_nd b).
(** add_known_div_constraints, isl_map.c:536-558 *)
Definition add_div_constraints (b : bmap) (i : nat) : bmap := add_lower_div_constraint (add_upper_div_constraint b i) i.
Definition add_known_div_constraints (b : bmap) : bmap :=
  fold_left (fun b i => if hd 0 (nth i (b_div b) []) =? 0 then b else add_div_constraints b i) (seq 0 (ndiv b)) b.
(** isl_basic_map_overlying_set, isl_map.c:5682-5748, including
    isl_basic_map_add_known_div_constraints, isl_map.c:5580-5595 *)
Definition overlying (s like : bmap) : res bmap :=
  if negb (Nat.eqb (b_param s) 0) || negb (Nat.eqb (ndiv s) 0) then Null
  else if negb (Nat.eqb (b_out s) (total like)) then Null
  else if Nat.eqb (ndiv like) 0 then Ok (reset_dims same_ids s (b_param like) (b_in like) (b_out like))
  else
    let b := mkb (b_param like) (b_in like) (b_out like) (b_eq s) (b_ineq s) (b_div like) (b_rat s) (b_empty s) (b_nd s) in
    let b := add_known_div_constraints b in
    let! x := remove_duplicate_constraints hash b false in
    simp_fin hash no_redundant tab fuel (finalize (fst x)).
(** find_div, isl_map.c:9626-9644 *)
Definition same_div (n div : nat) (d sd : row) : bool :=
  seq_eq (firstn (2 + n + div) d) (firstn (2 + n + div) sd)
  && match seq_first_non_zero (skipn (2 + n + div) d) with None => true | Some _ => false end.
Fixpoint find_from (n div : nat) (ds : list row) (i : nat) (sd : row) : option nat :=
  match ds with
  | [] => None
  | d :: t => if Nat.leb div i && same_div n div d sd then Some i else find_from n div t (S i) sd
  end.
(** the loop of isl_basic_map_align_divs, isl_map.c:9694-9724, from integer
    division [i] of the source on *)
Fixpoint align_loop (m i : nat) (dst src : bmap) : res bmap :=
  match m with
  | O => Ok dst
  | S m' =>
    if Nat.ltb (ndiv dst) i then Null
    else
      let sd := nth i (b_div src) [] in
      let '(dst, j) :=
        match find_from (nvar src) i (b_div dst) 0 sd with
        | Some j => (dst, j)
        | None =>
          let j := ndiv dst in
          let d := firstn (2 + nvar src + i) sd ++ repeat 0 (S j - i) in
          (add_div_constraints (alloc_div dst d) j, j)
        end in
      align_loop m' (S i) (if Nat.eqb j i then dst else swap_div dst i j) src
  end.
(** isl_basic_map_align_divs, isl_map.c:9663-9724 *)
Definition align_divs (dst src : bmap) : res bmap :=
  if Nat.eqb (ndiv src) 0 then Ok dst
  else if negb (has_known_divs src) then Null
  else
    let! dst := align_loop (ndiv src) 0 dst src in
    order_divs dst.
(** isl_basic_map_remove_shifted_constraints, isl_map_simplify.c:2139-2168 *)
Definition remove_shifted_constraints (b ctx : bmap) : res bmap :=
  if Nat.eqb (length (b_ineq b)) 0 || Nat.eqb (length (b_ineq ctx)) 0 then Ok b
  else
    let! b := order_divs b in
    let! ctx := align_divs ctx b in
    let! b := align_divs b ctx in
    let! s := remove_shifted (underlying b) (underlying ctx) in
    overlying s b.
(** isl_basic_map_add_dims, isl_map.c:4121-4130, on a set without local
    variables: the columns of the new dimensions are zero *)
Definition add_set_dims (s : bmap) (n : nat) : bmap :=
  if Nat.eqb n 0 then s
  else if b_empty s then empty_set (b_out s + n)
  else mkb 0 0 (b_out s + n) (map (pad n) (b_eq s)) (map (pad n) (b_ineq s)) [] (b_rat s) false false.
(** isl_basic_map_gist, isl_map_simplify.c:3260-3329 *)
Definition basic_map_gist (b ctx : bmap) : res bmap :=
  if plain_universe b then Ok b
  else if b_empty ctx then Ok (fresh_map (b_param b) (b_in b) (b_out b))
  else if b_empty b then Ok b
  else
    let! b := remove_redundancies no_redundant tab b in
    let! ctx := remove_redundancies no_redundant tab ctx in
    let! b := order_divs b in
    let! ctx := align_divs ctx b in
    let extra := (ndiv ctx - ndiv b)%nat in
    let! s := uset_gist (add_set_dims (underlying b) extra) (underlying ctx) in
    let! s := project_out hash no_redundant tab fuel drop_redundant_divs s DOut (total b) extra in
    if Nat.eqb (length (b_eq s)) 0 || Nat.eqb (ndiv ctx) 0 || b_empty s then overlying s b
    else
      let! eqb := overlying (set_ineq s []) b in
      let! eqb := gist_strides eqb ctx in
      let! eqb := remove_shifted_constraints eqb ctx in
      let! b := overlying (set_eq s []) b in
      let! b := intersect hash no_redundant tab fuel b eqb in
      remove_redundancies no_redundant tab b.

(** ** maps *)

(** isl_map_compute_divs, isl_map.c:8086-8117, computing explicit
    representations in [map_compute_divs] of SubModel.v *)
Variable compute_divs : list bmap -> res (list bmap).
(** isl_map_plain_is_equal, isl_map.c:10533-10567 *)
Variable plain_equal : list bmap -> list bmap -> res bool.
(** isl_map_is_subset, isl_map_subtract.c:877-881 *)
Variable is_subset : list bmap -> list bmap -> res bool.
(** isl_map_simple_hull, isl_convex_hull.c:2474-2477 *)
Variable simple_hull : list bmap -> res bmap.
(** isl_map_unshifted_simple_hull_from_map_list, isl_convex_hull.c:3037-3053 *)
Variable unshifted_hull : list bmap -> list (list bmap) -> res bmap.

(** the loop of isl_map_gist_basic_map, isl_map_simplify.c:3357-3367, on the
    basic maps below position [i] *)
Fixpoint gist_loop (i : nat) (l : list bmap) (ctx : bmap) : res (list bmap) :=
  match i with
  | O => Ok l
  | S i' =>
    let! b := basic_map_gist (nth i' l (fresh_map 0 0 0)) ctx in
    let l := lset l i' b in
    gist_loop i' (if b_empty b then (let n := (length l - 1)%nat in firstn n (lset l i' (nth n l b))) else l) ctx
  end.
(** isl_map_gist_basic_map, isl_map_simplify.c:3334-3374 *)
Definition map_gist_basic_map (np ni no : nat) (l : list bmap) (ctx : bmap) : res (list bmap) :=
  if b_empty ctx then Ok [fresh_map np ni no]
  else
    let! ctx := remove_redundancies no_redundant tab ctx in
    let! l := compute_divs l in
    gist_loop (length l) l ctx.
(** isl_map_gist, isl_map_simplify.c:3672-3731 *)
Definition map_gist (np ni no : nat) (l ctx : list bmap) : res (list bmap) :=
  if map_plain_universe l || map_plain_universe ctx then Ok l
  else
    let! equal := plain_equal l ctx in
    if equal then Ok [fresh_map np ni no]
    else
      let! sub := if Nat.eqb (length l) 1 && Nat.eqb (length ctx) 1 then Ok false else is_subset ctx l in
      if sub then Ok [fresh_map np ni no]
      else
        let n := length ctx in
        let! ctx := compute_divs ctx in
        let! hull := if Nat.eqb n 1 then simple_hull ctx else unshifted_hull ctx [ctx; l] in
        map_gist_basic_map np ni no l hull.
End Params.
