(** Model of set difference and of the tests that are based on it:
    isl_map_subtract.c, the tests of isl_map.c:9058-9280 and the disjointness
    tests of isl_map_simplify.c:1958-4065.

    The tableau is modelled by the basic map that it keeps track of
    (tab->bmap) and by the flag tab->empty.  Taking a snapshot and rolling back
    to it is keeping this pair and restoring it.  What the tableau finds out
    about the constraints, which depends on all that happened to it before, is
    an argument of the model that may be different at each step.
    Only the numbers of dimensions of a space are modelled and the maps have the
    same space; see SpaceModel.v for the rest of a space.  That
    isl_basic_map_is_empty marks its argument empty is not modelled. *)
From Coq Require Import ZArith List Bool Arith.
From Verif Require Import SeqModel MatModel BMapModel ReorderModel LocalModel SortModel BElimModel SimpModel SetModel.
Import ListNotations.
Open Scope nat_scope.

(** the loop of expand_constraint, isl_map_subtract.c:39-42, over the
    coefficients [es] of the local variables; also the loop of tab_add_divs,
    isl_map_subtract.c:198-201, which has one more entry at the front *)
Fixpoint expand_loop (v : row) (off : nat) (es : row) (dm : list nat) : row :=
  match es, dm with
  | e :: es', p :: dm' => expand_loop (zupd v (off + p) (nth (off + p) v 0 + e)%Z) off es' dm'
  | _, _ => v
  end.
(** expand_constraint, isl_map_subtract.c:32-43; [size] is the number of elements of [v] *)
Definition expand_constraint (size dim : nat) (c : row) (dm : list nat) : row :=
  expand_loop (firstn (1 + dim) c ++ repeat 0%Z (size - (1 + dim))) (1 + dim) (skipn (1 + dim) c) dm.
(** isl_basic_map_add_ineq, isl_map.c:1842-1861 *)
Definition add_ineq (b : bmap) (r : row) : bmap := set_ineq b (b_ineq b ++ [r]).
(** isl_basic_map_insert_div, isl_map.c:1908-1935, at the last position *)
Definition insert_div (b : bmap) (d : row) : bmap :=
  let b := pad_map 1 b in set_nd (set_div b (b_div b ++ [d ++ [0%Z]])) false.
(** ineq_for_div, isl_tab.c:2200-2219 *)
Definition ineq_for_div (b : bmap) (k : nat) : row :=
  let d := nth k (b_div b) [] in zupd (tl d) (1 + nvar b + k) (- hd 0 d)%Z.
(** the second constraint of add_div_constraints, isl_tab.c:2261-2264 *)
Definition ineq_for_div2 (b : bmap) (k : nat) : row :=
  let d := nth k (b_div b) [] in
  let r := zupd (seq_neg (tl d)) (1 + nvar b + k) (hd 0 d)%Z in
  zupd r 0 (nth 0 r 0 + nth (1 + nvar b + k) r 0 - 1)%Z.
(** the loop of tab_add_divs that looks for an equal integer division,
    isl_map_subtract.c:202-205 *)
Fixpoint find_div (vec : row) (ds : list row) : nat :=
  match ds with [] => 0 | d :: t => if seq_eq d vec then 0 else S (find_div vec t) end.
(** isl_basic_map_divs_known, isl_map.c:8024-8034, isl_basic_map_div_is_known,
    isl_map.c:3237-3258: all local variables have an explicit representation *)
Definition has_known_divs (b : bmap) : bool := forallb (fun d => negb (Z.eqb (hd 0%Z d) 0)) (b_div b).

Section Params.
(** the arguments of isl_basic_map_simplify in SimpModel.v *)
Variable hash : row -> nat.
Variable no_redundant : bmap -> bool.
Variable tab : bmap -> bool * list kind.
Variable fuel : nat.
(** the sample computed by isl_basic_map_is_empty, isl_map.c:9413-9417 *)
Variable no_sample : bmap -> bool.
(** whether the tableau is found to be empty after the addition of an
    inequality, isl_tab.c:1930-1946, at some step *)
Variable tab_is_empty : nat -> bmap -> bool.
(** the inequalities that are redundant after isl_tab_detect_redundant,
    isl_map_subtract.c:243-262, when the first [n] of them are frozen *)
Variable tab_redundant : nat -> bmap -> nat -> list bool.
(** what the tableau knows about the inequalities in
    isl_basic_map_update_from_tab, isl_tab.c:2624-2651 *)
Variable tab_kinds : nat -> bmap -> list kind.

(** isl_basic_map_is_empty, isl_map.c:9379-9422, for a basic map that is not
    rational and that does not have a sample *)
Definition bmap_is_empty (b : bmap) : bool :=
  if b_empty b then true else if plain_universe b then false else no_sample b.

Definition table := (bmap * bool)%type.
(** isl_tab_add_ineq, isl_tab.c:1896-1948 *)
Definition tab_add_ineq (s : nat) (t : table) (r : row) : table :=
  let b := add_ineq (fst t) r in (b, snd t || tab_is_empty s b).
(** isl_tab_add_div, isl_tab.c:2372-2377; isl_tab_insert_div,
    isl_tab.c:2322-2366; add_div_constraints, isl_tab.c:2237-2280 *)
Definition tab_add_div (s : nat) (t : table) (d : row) : table :=
  let k := ndiv (fst t) in
  let b := insert_div (fst t) d in
  let t := (b, snd t) in
  let t := tab_add_ineq s t (ineq_for_div b k) in
  tab_add_ineq s t (ineq_for_div2 b k).
(** the loop over the equalities of tab_add_constraints,
    isl_map_subtract.c:75-87 *)
Fixpoint tab_add_eqs (s : nat) (t : table) (dim : nat) (dm : list nat) (eqs : list row) : table :=
  match eqs with
  | [] => t
  | r :: eqs' =>
    let size := 1 + total (fst t) in
    let t := tab_add_ineq s t (expand_constraint size dim r dm) in
    let t := tab_add_ineq s t (expand_constraint size dim (seq_neg r) dm) in
    if snd t then t else tab_add_eqs s t dim dm eqs'
  end.
(** the loop over the inequalities of tab_add_constraints,
    isl_map_subtract.c:89-95 *)
Fixpoint tab_add_ineqs (s : nat) (t : table) (dim : nat) (dm : list nat) (ineqs : list row) : table :=
  match ineqs with
  | [] => t
  | r :: ineqs' =>
    let t := tab_add_ineq s t (expand_constraint (1 + total (fst t)) dim r dm) in
    if snd t then t else tab_add_ineqs s t dim dm ineqs'
  end.
(** tab_add_constraints, isl_map_subtract.c:49-102 *)
Definition tab_add_constraints (s : nat) (t : table) (b : bmap) (dm : list nat) : table :=
  let t := tab_add_eqs s t (nvar b) dm (b_eq b) in
  tab_add_ineqs s t (nvar b) dm (b_ineq b).
(** the constraint at position [c], or its opposite, in tab_add_constraint,
    isl_map_subtract.c:139-164 *)
Definition constraint_row (b : bmap) (c : nat) (oppose : bool) : row :=
  let sub (r : row) := if oppose then zupd r 0 (nth 0 r 0 - 1)%Z else r in
  if Nat.ltb c (2 * length (b_eq b)) then
    let r := nth (c / 2) (b_eq b) [] in
    sub (if Bool.eqb (Nat.odd c) oppose then r else seq_neg r)
  else
    let r := nth (c - 2 * length (b_eq b)) (b_ineq b) [] in
    sub (if oppose then seq_neg r else r).
(** tab_add_constraint, isl_map_subtract.c:114-168 *)
Definition tab_add_constraint (s : nat) (t : table) (b : bmap) (dm : list nat) (c : nat) (oppose : bool) : table :=
  tab_add_ineq s t (expand_constraint (1 + total (fst t)) (nvar b) (constraint_row b c oppose) dm).
(** the loop of tab_add_divs, isl_map_subtract.c:195-212; [ds] contains the
    remaining integer divisions and [dm] the positions of the others *)
Fixpoint tab_add_divs_loop (s : nat) (t : table) (nv : nat) (ds : list row) (dm : list nat) : table * list nat :=
  match ds with
  | [] => (t, dm)
  | d :: ds' =>
    let vec := expand_loop (firstn (2 + nv) d ++ repeat 0%Z (ndiv (fst t))) (2 + nv) (skipn (2 + nv) d) dm in
    let j := find_div vec (b_div (fst t)) in
    let t := if Nat.eqb j (ndiv (fst t)) then tab_add_div s t vec else t in
    tab_add_divs_loop s t nv ds' (dm ++ [j])
  end.
(** tab_add_divs, isl_map_subtract.c:170-221 *)
Definition tab_add_divs (s : nat) (t : table) (b : bmap) : table * list nat := tab_add_divs_loop s t (nvar b) (b_div b) [].
(** the loop of n_non_redundant, isl_map_subtract.c:253-261, from position [i] on *)
Fixpoint non_redundant (i : nat) (red : list bool) : list nat :=
  match red with
  | [] => []
  | r :: red' => if r then non_redundant (S i) red' else i :: non_redundant (S i) red'
  end.
(** n_non_redundant, isl_map_subtract.c:241-268; the result is the array
    index[level] *)
Definition n_non_redundant (s : nat) (t : table) (offset : nat) : list nat :=
  non_redundant 0 (firstn (length (b_ineq (fst t)) - offset) (skipn offset (tab_redundant s (fst t) offset) ++ repeat false (length (b_ineq (fst t)) - offset))).

(** the entries of the arrays snap, k, n, index and div_map for one level,
    isl_map_subtract.c:319-322 *)
Record frame := mkf { f_snap : table; f_k : nat; f_n : nat; f_index : list nat; f_map : list nat }.
(** the variables of the loop of basic_map_collect_diff *)
Record search := mks { s_level : nat; s_init : bool; s_modified : bool; s_tab : table; s_frames : list frame; s_out : list bmap }.
(** the result of one iteration: the next state, or the end of the loop with
    the pieces that were passed to dc->add *)
Inductive turn := Next (st : search) | Stop (out : list bmap).
(** going to a lower level, with init equal to zero, isl_map_subtract.c:377-379,
    410-412, 423-425 and the condition of the loop, isl_map_subtract.c:353 *)
Definition lower (st : search) : turn :=
  match s_level st with
  | O => Stop (s_out st)
  | S l => Next (mks l false (s_modified st) (s_tab st) (s_frames st) (s_out st))
  end.
Section Loop.
Variable bm : bmap.
Variable mp : list bmap.
(** whether the function dc->add returns a negative value: isl_stat_ok in
    basic_map_subtract_add, isl_map_subtract.c:485-495, isl_stat_error in
    basic_map_is_empty_add, isl_map_subtract.c:655-665; the pieces passed to it are the list s_out *)
Variable once : bool.
Definition frame0 : frame := mkf (bm, false) 0 0 [] [].
(** a leaf, isl_map_subtract.c:354-380 *)
Definition at_leaf (s : nat) (st : search) : res turn :=
  if negb (s_modified st) then Ok (Stop (s_out st ++ [bm]))
  else
    let! b := update_from_tab (fst (s_tab st)) (snd (s_tab st)) (tab_kinds s (fst (s_tab st))) in
    let! b := simp_fin hash no_redundant tab fuel b in
    if bmap_is_empty b then Ok (lower st)
    else if once then Ok (Stop (s_out st ++ [b]))
    else Ok (lower (mks (s_level st) (s_init st) (s_modified st) (s_tab st) (s_frames st) (s_out st ++ [b]))).
(** the first time at a level, isl_map_subtract.c:381-420 *)
Definition at_init (s : nat) (st : search) : turn :=
  let l := s_level st in
  let p := nth l mp bm in
  let '(t1, dm) := tab_add_divs s (s_tab st) p in
  let offset := length (b_ineq (fst t1)) in
  let t2 := tab_add_constraints s t1 p dm in
  if snd t2 then
    Next (mks (S l) true (s_modified st) (s_tab st) (lset (s_frames st) l (mkf t1 0 0 [] dm)) (s_out st))
  else
    let idx := n_non_redundant s t2 offset in
    let frames := lset (s_frames st) l (mkf t1 0 (length idx) idx dm) in
    match idx with
    | [] => lower (mks l true true t2 frames (s_out st))
    | c :: _ => Next (mks (S l) true true (tab_add_constraint s t1 p dm c true) frames (s_out st))
    end.
(** back at a level, isl_map_subtract.c:421-443 *)
Definition at_next (s : nat) (st : search) : turn :=
  let l := s_level st in
  let p := nth l mp bm in
  let f := nth l (s_frames st) frame0 in
  if Nat.leb (f_n f) (f_k f + 1) then lower st
  else
    let t := tab_add_constraint s (f_snap f) p (f_map f) (nth (f_k f) (f_index f) 0) false in
    let k := S (f_k f) in
    let t' := tab_add_constraint s t p (f_map f) (nth k (f_index f) 0) true in
    Next (mks (S l) true (s_modified st) t' (lset (s_frames st) l (mkf t k (f_n f) (f_index f) (f_map f))) (s_out st)).
(** the loop of basic_map_collect_diff, isl_map_subtract.c:353-444; the number
    of iterations that are left also tells the steps apart *)
Fixpoint search_loop (steps : nat) (st : search) : res (list bmap) :=
  match steps with
  | O => Div
  | S steps' =>
    let! t := (if Nat.leb (length mp) (s_level st) then at_leaf steps st
               else if s_init st then Ok (at_init steps st) else Ok (at_next steps st)) in
    match t with
    | Stop out => Ok out
    | Next st' => search_loop steps' st'
    end
  end.
End Loop.
(** basic_map_collect_diff, isl_map_subtract.c:308-473: the pieces passed to
    dc->add *)
Definition collect_diff (steps : nat) (once : bool) (b : bmap) (l : list bmap) : res (list bmap) :=
  if bmap_is_empty b then Ok []
  else
    let! b := order_divs b in
    let! l := each order_divs l in
    search_loop b l once steps (mks 0 true false (b, tab_is_empty (S steps) b) (repeat (frame0 b) (length l)) []).

(** qsort, the argument of isl_map_plain_is_equal in SetModel.v *)
Variable qsort : list bmap -> list bmap.
(** the computation of the explicit representations of the local variables in
    isl_map_compute_divs, isl_map.c:8105-8114 *)
Variable explicit_divs : list bmap -> res (list bmap).
(** the flag ISL_MAP_DISJOINT *)
Variable marked_disjoint : list bmap -> bool.
(** isl_map_compute_divs, isl_map.c:8086-8117 *)
Definition map_compute_divs (l : list bmap) : res (list bmap) :=
  if forallb has_known_divs l then Ok l else explicit_divs l.
(** isl_map_remove_empty_parts, isl_map.c:9842-9853 *)
Definition remove_empty_parts (l : list bmap) : list bmap := filter (fun b => negb (b_empty b)) l.
(** isl_map_from_basic_map, isl_map.c:3495-3504; basic_map_subtract_add,
    isl_map_subtract.c:485-495; basic_map_subtract, isl_map_subtract.c:499-510 *)
Definition add_piece (diff : list bmap) (b : bmap) : list bmap := map_union_disjoint diff (add_basic_map [] b).
Definition basic_map_subtract (steps : nat) (b : bmap) (l : list bmap) : res (list bmap) :=
  let! ps := collect_diff steps false b l in Ok (fold_left add_piece ps []).
(** the loop of isl_map_subtract, isl_map_subtract.c:561-569 *)
Fixpoint subtract_loop (steps : nat) (disjoint : bool) (diff l1 l2 : list bmap) : res (list bmap) :=
  match l1 with
  | [] => Ok diff
  | b :: l1' =>
    let! d := basic_map_subtract steps b l2 in
    let! diff := (if disjoint then Ok (map_union_disjoint diff d) else map_union no_redundant tab qsort diff d) in
    subtract_loop steps disjoint diff l1' l2
  end.

(** ** disjointness *)

(** compute_elimination_index, isl_map_simplify.c:1958-1973: the last equality
    with its last variable at position [d] *)
Definition last_var (len : nat) (r : row) : option nat := seq_last_non_zero (firstn len (tl r)).
Fixpoint elim_row (eqs : list row) (len d : nat) (acc : option row) : option row :=
  match eqs with
  | [] => acc
  | r :: t => elim_row t len d (match last_var len r with Some d' => if Nat.eqb d' d then Some r else acc | None => acc end)
  end.
(** reduced_using_equalities, isl_map_simplify.c:1981-1999; [n] is d + 1.  The
    result is None if nothing was copied. *)
Fixpoint reduced_loop (n : nat) (eqs : list row) (total : nat) (src dst : row) (copied : bool) : option row :=
  match n with
  | O => if copied then Some dst else None
  | S d =>
    if Z.eqb (nth (1 + d) src 0%Z) 0 then reduced_loop d eqs total src dst copied
    else
      match elim_row eqs total d None with
      | None => reduced_loop d eqs total src dst copied
      | Some r => reduced_loop d eqs total src (fst (seq_elim dst r (1 + d) 1%Z)) true
      end
  end.
Definition reduced_using_equalities (eqs : list row) (total : nat) (src : row) : option row :=
  reduced_loop total eqs total src src false.
(** the tests on the reduced constraints, isl_map_simplify.c:3838-3864 *)
Definition is_constant (r : row) : bool := match seq_first_non_zero (tl r) with None => true | Some _ => false end.
Definition eq_contradicts (eqs : list row) (total : nat) (r : row) : bool :=
  match reduced_using_equalities eqs total r with Some v => negb (Z.eqb (nth 0 v 0%Z) 0) && is_constant v | None => false end.
Definition ineq_contradicts (eqs : list row) (total : nat) (r : row) : bool :=
  match reduced_using_equalities eqs total r with Some v => Z.ltb (nth 0 v 0%Z) 0 && is_constant v | None => false end.
(** isl_basic_map_plain_is_disjoint, isl_map_simplify.c:3810-3873 *)
Definition plain_disjoint (b1 b2 : bmap) : bool :=
  let n := nvar b1 in
  if negb (Nat.eqb (ndiv b1) 0) || negb (Nat.eqb (ndiv b2) 0) then false
  else if Nat.eqb (length (b_eq b1)) 0 && Nat.eqb (length (b_eq b2)) 0 then false
  else if Nat.eqb n 0 then false
  else existsb (eq_contradicts (b_eq b1) n) (b_eq b2) || existsb (ineq_contradicts (b_eq b1) n) (b_ineq b2) || existsb (ineq_contradicts (b_eq b2) n) (b_ineq b1).
(** isl_basic_map_is_disjoint, isl_map_simplify.c:4034-4067 *)
Definition basic_disjoint (b1 b2 : bmap) : res bool :=
  if plain_disjoint b1 b2 then Ok true
  else if bmap_is_empty b1 then Ok true
  else if bmap_is_empty b2 then Ok true
  else if plain_universe b1 then Ok false
  else if plain_universe b2 then Ok false
  else let! t := intersect hash no_redundant tab fuel b1 b2 in Ok (bmap_is_empty t).
(** all_pairs, isl_map_simplify.c:3884-3902 *)
Fixpoint all_right (test : bmap -> bmap -> res bool) (b1 : bmap) (l2 : list bmap) : res bool :=
  match l2 with
  | [] => Ok true
  | b2 :: t => let! d := test b1 b2 in if d then all_right test b1 t else Ok false
  end.
Fixpoint all_pairs (test : bmap -> bmap -> res bool) (l1 l2 : list bmap) : res bool :=
  match l1 with
  | [] => Ok true
  | b1 :: t => let! d := all_right test b1 l2 in if d then all_pairs test t l2 else Ok false
  end.
(** isl_map_is_empty, isl_map.c:9136-9151 *)
Definition map_is_empty (l : list bmap) : bool := forallb bmap_is_empty l.
(** isl_map_is_disjoint, isl_map_simplify.c:3994-4025, for maps with the same
    space; isl_map_plain_is_disjoint_global, isl_map_simplify.c:3910-3936;
    isl_map_is_disjoint_aligned, isl_map_simplify.c:3979-3983 *)
Definition map_is_disjoint (l1 l2 : list bmap) : res bool :=
  if Nat.eqb (length l1) 0 then Ok true
  else if Nat.eqb (length l2) 0 then Ok true
  else if map_is_empty l1 then Ok true
  else if map_is_empty l2 then Ok true
  else if map_plain_universe l1 then Ok false
  else if map_plain_universe l2 then Ok false
  else
    let! e := map_plain_equal no_redundant tab qsort l1 l2 in
    if e then Ok false else all_pairs basic_disjoint l1 l2.

(** ** subtraction *)

(** isl_map_subtract, isl_map_subtract.c:533-586 *)
Definition map_subtract (steps : nat) (l1 l2 : list bmap) : res (list bmap) :=
  let! e := map_plain_equal no_redundant tab qsort l1 l2 in
  if e then Ok []
  else
    let! d := map_is_disjoint l1 l2 in
    if d then Ok l1
    else
      let! l1 := map_compute_divs l1 in
      let! l2 := map_compute_divs l2 in
      let l1 := remove_empty_parts l1 in
      let l2 := remove_empty_parts l2 in
      subtract_loop steps (marked_disjoint l1) [] l1 l2.
(** isl_map_complement, isl_map_subtract.c:929-939 *)
Definition map_complement (steps : nat) (np ni no : nat) (l : list bmap) : res (list bmap) :=
  map_subtract steps [fresh_map np ni no] l.
(** isl_map_subtract_domain, isl_map_subtract.c:597-618, and
    isl_map_subtract_range, isl_map_subtract.c:622-643 *)
Variable same_ids : bmap -> bool.
Definition map_subtract_domain (steps : nat) (np ni no : nat) (l s : list bmap) : res (list bmap) :=
  let! e := map_intersect_domain same_ids hash no_redundant tab fuel [fresh_map np ni no] s in
  map_subtract steps l e.
Definition map_subtract_range (steps : nat) (np ni no : nat) (l s : list bmap) : res (list bmap) :=
  let! e := map_intersect_range hash no_redundant tab fuel [fresh_map np ni no] s in
  map_subtract steps l e.

(** ** subset and equality *)

(** basic_map_diff_is_empty, isl_map_subtract.c:670-689 *)
Definition diff_is_empty (steps : nat) (l2 : list bmap) (b : bmap) : res bool :=
  if b_empty b then Ok true
  else let! ps := collect_diff steps true b l2 in Ok (Nat.eqb (length ps) 0).
(** map_diff_is_empty, isl_map_subtract.c:694-710 *)
Fixpoint map_diff_is_empty (steps : nat) (l1 l2 : list bmap) : res bool :=
  match l1 with
  | [] => Ok true
  | b :: t => let! e := diff_is_empty steps l2 b in if e then map_diff_is_empty steps t l2 else Ok false
  end.
(** isl_basic_map_plain_is_singleton, isl_map_subtract.c:714-728 *)
Definition plain_singleton (b : bmap) : bool :=
  Nat.eqb (ndiv b) 0 && Nat.eqb (length (b_ineq b)) 0 && Nat.eqb (length (b_eq b)) (total b).
(** isl_map_plain_is_singleton, isl_map_subtract.c:732-740 *)
Definition map_plain_singleton (l : list bmap) : bool := match l with [b] => plain_singleton b | _ => false end.
(** the loop of singleton_extract_point, isl_map_subtract.c:746-767, over the
    equalities from number [j] on; the elements of the vector that were not
    set yet are zero here *)
Fixpoint extract_loop (dim j : nat) (eqs : list row) (point : row) : res row :=
  match eqs with
  | [] => Ok point
  | r :: eqs' =>
    let i := dim - 1 - j in
    let a := nth (1 + i) r 0%Z in
    if negb (forallb (Z.eqb 0) (firstn i (tl r))) then Null
    else if negb (Z.eqb a 1 || Z.eqb a (-1)) then Null
    else if negb (forallb (Z.eqb 0) (skipn (2 + i) r)) then Null
    else
      let m := Z.abs (Z.quot a (Z.gcd (nth 0 point 0%Z) a)) in
      let point := map (Z.mul m) (firstn (1 + i) point) ++ skipn (1 + i) point in
      let m := (- Z.quot (nth 0 point 0) a)%Z in
      extract_loop dim (S j) eqs' (zupd point (1 + i) (m * nth 0 r 0)%Z)
  end.
(** singleton_extract_point, isl_map_subtract.c:745-793 *)
Definition extract_point (b : bmap) : res row :=
  extract_loop (total b) 0 (b_eq b) (1%Z :: repeat 0%Z (total b)).
(** isl_basic_map_contains, isl_map.c:3661-3696 *)
Definition contains (b : bmap) (v : row) : bool :=
  if negb (Nat.eqb (1 + total b) (length v)) then false
  else forallb (fun r => Z.eqb (seq_inner_product v r) 0) (b_eq b) && forallb (fun r => negb (Z.ltb (seq_inner_product v r) 0)) (b_ineq b).
(** isl_basic_map_contains_point, isl_point.c:616-637 *)
Definition contains_point (b : bmap) (p : row) : res bool :=
  if Nat.eqb (ndiv b) 0 then Ok (contains b p)
  else let! v := extend_point (nvar b) (b_div b) p in Ok (contains b v).
(** the loop of map_is_singleton_subset, isl_map_subtract.c:800-804 *)
Fixpoint any_contains (l : list bmap) (p : row) : res bool :=
  match l with
  | [] => Ok false
  | b :: t => let! c := contains_point b p in if c then Ok true else any_contains t p
  end.
(** map_is_singleton_subset, isl_map_subtract.c:799-825 *)
Definition singleton_subset (l1 l2 : list bmap) : res bool :=
  match l1 with
  | [b] => let! p := extract_point b in any_contains l2 p
  | _ => Null
  end.
(** map_is_subset, isl_map_subtract.c:827-875, for maps with the same space
    that are not rational *)
Definition map_is_subset (steps : nat) (l1 l2 : list bmap) : res bool :=
  if map_is_empty l1 then Ok true
  else if map_is_empty l2 then Ok false
  else if map_plain_universe l2 then Ok true
  else
    let single := map_plain_singleton l1 in
    let! l2 := map_compute_divs l2 in
    if single then singleton_subset l1 l2 else map_diff_is_empty steps l1 l2.
(** isl_basic_map_is_subset, isl_map.c:9088-9107; isl_basic_map_is_equal,
    isl_map.c:9116-9127 *)
Definition basic_is_subset (steps : nat) (b1 b2 : bmap) : res bool :=
  map_is_subset steps (add_basic_map [] b1) (add_basic_map [] b2).
Definition basic_is_equal (steps : nat) (b1 b2 : bmap) : res bool :=
  let! s := basic_is_subset steps b1 b2 in if s then basic_is_subset steps b2 b1 else Ok false.
(** map_is_equal, isl_map.c:9219-9230; isl_map_is_equal, isl_map.c:9237-9245 *)
Definition map_is_equal (steps : nat) (l1 l2 : list bmap) : res bool :=
  let! e := map_plain_equal no_redundant tab qsort l1 l2 in
  if e then Ok true
  else let! s := map_is_subset steps l1 l2 in if s then map_is_subset steps l2 l1 else Ok false.
(** isl_map_is_strict_subset, isl_map.c:9261-9273 *)
Definition map_is_strict_subset (steps : nat) (l1 l2 : list bmap) : res bool :=
  let! s := map_is_subset steps l1 l2 in
  if s then let! s := map_is_subset steps l2 l1 in Ok (negb s) else Ok false.
End Params.
