(** Model of the operations on basic maps and maps in isl_map.c: intersection,
    union, reversal, products, composition and projection.

    Only the numbers of dimensions of a space are modelled here; tuple and
    parameter identifiers are in SpaceModel.v and the alignment of parameters is
    in ReorderModel.v.  A basic set is a basic map without input dimensions.
    The samples, the flags DISJOINT and NORMALIZED of maps and the special case
    for equal pointers are not modelled. *)
From Coq Require Import ZArith List Bool Arith.
From Verif Require Import SeqModel MatModel BMapModel ReorderModel LocalModel SortModel BElimModel SimpModel.
Import ListNotations.
Open Scope nat_scope.

(** isl_basic_map_alloc_space, isl_map.c:1375-1391 *)
Definition fresh_map (np ni no : nat) : bmap := mkb np ni no [] [] [] false false false.
(** isl_basic_map_plain_is_universe, isl_map.c:9285-9290 *)
Definition plain_universe (b : bmap) : bool := Nat.eqb (length (b_eq b)) 0 && Nat.eqb (length (b_ineq b)) 0.

(** isl_dim_map_dim_range, isl_dim_map.c:70-85, and isl_dim_map_div,
    isl_dim_map.c:97-111, with the first source position *)
Definition dm_block (m : dim_map) (src n dst : nat) : dim_map := dm_range m dst 1 src 1 n 0 1%Z.
(** isl_dim_map_dim, isl_dim_map.c:87-95, for the parameters, the input and the
    output dimensions; isl_dim_map_div, isl_dim_map.c:97-111 *)
Definition dm_param (m : dim_map) (b : bmap) (dst : nat) : dim_map := dm_block m 0 (b_param b) dst.
Definition dm_in (m : dim_map) (b : bmap) (dst : nat) : dim_map := dm_block m (b_param b) (b_in b) dst.
Definition dm_out (m : dim_map) (b : bmap) (dst : nat) : dim_map := dm_block m (b_param b + b_in b) (b_out b) dst.
Definition dm_div (m : dim_map) (b : bmap) (dst : nat) : dim_map := dm_block m (nvar b) (ndiv b) dst.

(** the columns for [n] more local variables: a freshly added local variable
    does not appear in the constraints yet, isl_basic_map_extend,
    isl_map.c:1984-2024 *)
Definition pad (n : nat) (r : row) : row := r ++ repeat 0%Z n.
Definition pad_map (n : nat) (b : bmap) : bmap :=
  set_div (set_ineq (set_eq b (map (pad n) (b_eq b))) (map (pad n) (b_ineq b))) (map (pad n) (b_div b)).
(** isl_basic_map_add_constraints_dim_map, isl_dim_map.c:145-184; the rows of
    [dst] are as long as the dimension map already *)
Definition add_mapped (dst src : bmap) (m : dim_map) : bmap := add_constraints dst src m.
(** add_constraints, isl_map.c:1947-1982, with i_pos = o_pos = 0 *)
Definition add_constraints_at (b1 b2 : bmap) : bmap :=
  let tot := total b1 in
  let m := dm_alloc (tot + ndiv b2) in
  let m := dm_param m b2 0 in
  let m := dm_in m b2 (b_param b1) in
  let m := dm_out m b2 (b_param b1 + b_in b1) in
  let m := dm_div m b2 tot in
  set_nd (add_mapped (pad_map (ndiv b2) b1) b2 m) false.
(** add_divs, isl_map.c:4703-4722, on a basic map of which the rows have the
    final length *)
Definition add_divs (b : bmap) (n len : nat) : bmap := set_div b (b_div b ++ repeat (repeat 0%Z len) n).

(** exchanging two consecutive blocks of variables: swap_vars, isl_map.c:2108-2114 *)
Definition swap_vars_row (pos n1 n2 : nat) (r : row) : row :=
  firstn pos r ++ firstn n2 (skipn (pos + n1) r) ++ firstn n1 (skipn pos r) ++ skipn (pos + n1 + n2) r.
(** isl_basic_map_swap_vars, isl_map.c:2116-2156 *)
Definition swap_vars (b : bmap) (pos n1 n2 : nat) : res bmap :=
  if Nat.eqb n1 0 || Nat.eqb n2 0 then Ok b
  else
    let f := swap_vars_row pos n1 n2 in
    let b := set_div (set_ineq (set_eq b (map f (b_eq b))) (map f (b_ineq b))) (map (fun d => hd 0%Z d :: f (tl d)) (b_div b)) in
    let! x := gauss b in Ok (finalize (fst x)).
(** changing the numbers of dimensions without touching the constraints *)
Definition with_dims (b : bmap) (np ni no : nat) : bmap :=
  mkb np ni no (b_eq b) (b_ineq b) (b_div b) (b_rat b) (b_empty b) (b_nd b).

Section Params.
(** whether the space of a basic map, including the identifiers, is the one it
    is replaced by in isl_basic_map_reset_space, isl_map.c:5803-5812 *)
Variable same_ids : bmap -> bool.
(** isl_basic_map_reset_space, isl_map.c:5796-5822 *)
Definition reset_dims (b : bmap) (np ni no : nat) : bmap :=
  if same_ids b then with_dims b np ni no else finalize (with_dims b np ni no).
(** isl_basic_map_reverse, isl_map.c:3988-4007 *)
Definition reverse (b : bmap) : res bmap :=
  let! b' := swap_vars b (1 + b_param b) (b_in b) (b_out b) in
  Ok (reset_dims b' (b_param b) (b_out b) (b_in b)).
(** isl_basic_map_from_range, isl_map.c:6190-6198: a set is a map without input
    dimensions already; isl_basic_map_from_domain, isl_map.c:6184-6188 *)
Definition from_range (b : bmap) : bmap := reset_dims b (b_param b) 0 (b_out b).
Definition from_domain (b : bmap) : res bmap := reverse (from_range b).

(** the arguments of isl_basic_map_simplify in SimpModel.v *)
Variable hash : row -> nat.
Variable no_redundant : bmap -> bool.
Variable tab : bmap -> bool * list kind.
Variable fuel : nat.
(** isl_basic_map_drop_redundant_divs, isl_map_simplify.c:5249-5308 *)
Variable drop_redundant_divs : bmap -> res bmap.
(** isl_basic_map_is_empty, isl_map.c:9379-9422 *)
Variable is_empty : bmap -> bool.

(** isl_basic_map_simplify followed by isl_basic_map_finalize *)
Definition simp_fin (b : bmap) : res bmap :=
  let! b := simplify hash no_redundant tab fuel b in Ok (finalize b).
(** ... with isl_basic_map_drop_redundant_divs in between *)
Definition simp_drop_fin (b : bmap) : res bmap :=
  let! b := simplify hash no_redundant tab fuel b in
  let! b := drop_redundant_divs b in Ok (finalize b).

(** isl_basic_map_intersect, isl_map.c:3704-3768, for basic maps with equal
    parameters, after the exchange of the arguments; the second one has the
    same space as the first one or no dimensions other than parameters *)
Definition intersect_ordered (b1 b2 : bmap) : res bmap :=
  if negb (Nat.eqb (b_in b2 + b_out b2) 0) && negb (Nat.eqb (b_in b1) (b_in b2) && Nat.eqb (b_out b1) (b_out b2)) then Null
  else if b_empty b1 then Ok b1
  else if b_empty b2 then Ok b2
  else simp_fin (add_constraints_at b1 b2).
Definition intersect (b1 b2 : bmap) : res bmap :=
  if negb (Nat.eqb (b_param b1) (b_param b2)) then Null
  else if Nat.eqb (b_in b1 + b_out b1) 0 && negb (Nat.eqb (b_in b2 + b_out b2) 0) then intersect_ordered b2 b1
  else intersect_ordered b1 b2.
(** isl_basic_map_intersect_domain, isl_map.c:3576-3606 *)
Definition intersect_domain (b s : bmap) : res bmap :=
  if negb (Nat.eqb (b_param b) (b_param s)) then Null
  else if negb (Nat.eqb (b_out s) 0) && negb (Nat.eqb (b_in b) (b_out s)) then Null
  else
    let! d := from_domain s in
    simp_fin (add_constraints_at b d).
(** isl_basic_map_intersect_range, isl_map.c:3625-3659 *)
Definition intersect_range (b s : bmap) : res bmap :=
  if negb (Nat.eqb (b_param b) (b_param s)) then Null
  else if negb (Nat.eqb (b_out s) 0) && negb (Nat.eqb (b_out b) (b_out s)) then Null
  else if plain_universe s then Ok b
  else simp_fin (add_constraints_at b s).

(** isl_basic_map_product, isl_map.c:10707-10748 *)
Definition product (b1 b2 : bmap) : res bmap :=
  if negb (Nat.eqb (b_param b1) (b_param b2)) then Null
  else
    let np := b_param b1 in
    let p2 := np + b_in b1 in
    let p3 := p2 + b_in b2 in
    let p4 := p3 + b_out b1 in
    let p5 := p4 + b_out b2 in
    let p6 := p5 + ndiv b1 in
    let tot := p6 + ndiv b2 in
    let m1 := dm_div (dm_out (dm_in (dm_param (dm_alloc tot) b1 0) b1 np) b1 p3) b1 p5 in
    let m2 := dm_div (dm_out (dm_in (dm_param (dm_alloc tot) b2 0) b2 p2) b2 p4) b2 p6 in
    simp_fin (add_mapped (add_mapped (fresh_map np (b_in b1 + b_in b2) (b_out b1 + b_out b2)) b1 m1) b2 m2).
(** isl_basic_map_domain_product, isl_map.c:10768-10813; the check that the
    ranges are the same is in isl_space_domain_product *)
Definition domain_product (b1 b2 : bmap) : res bmap :=
  if negb (Nat.eqb (b_param b1) (b_param b2)) || negb (Nat.eqb (b_out b1) (b_out b2)) then Null
  else
    let np := b_param b1 in
    let p2 := np + b_in b1 in
    let p3 := p2 + b_in b2 in
    let p5 := p3 + b_out b1 in
    let p6 := p5 + ndiv b1 in
    let tot := p6 + ndiv b2 in
    let m1 := dm_div (dm_out (dm_in (dm_param (dm_alloc tot) b1 0) b1 np) b1 p3) b1 p5 in
    let m2 := dm_div (dm_out (dm_in (dm_param (dm_alloc tot) b2 0) b2 p2) b2 p3) b2 p6 in
    simp_fin (add_mapped (add_mapped (fresh_map np (b_in b1 + b_in b2) (b_out b1)) b1 m1) b2 m2).
(** isl_basic_map_range_product, isl_map.c:10815-10866 *)
Definition range_product (b1 b2 : bmap) : res bmap :=
  if negb (Nat.eqb (b_param b1) (b_param b2)) || negb (Nat.eqb (b_in b1) (b_in b2)) then Null
  else
    let np := b_param b1 in
    let p2 := np + b_in b1 in
    let p4 := p2 + b_out b1 in
    let p5 := p4 + b_out b2 in
    let p6 := p5 + ndiv b1 in
    let tot := p6 + ndiv b2 in
    let m1 := dm_div (dm_out (dm_in (dm_param (dm_alloc tot) b1 0) b1 np) b1 p2) b1 p5 in
    let m2 := dm_div (dm_out (dm_in (dm_param (dm_alloc tot) b2 0) b2 np) b2 p4) b2 p6 in
    let b := add_mapped (add_mapped (fresh_map np (b_in b1) (b_out b1 + b_out b2)) b1 m1) b2 m2 in
    simp_fin (mkb (b_param b) (b_in b) (b_out b) (b_eq b) (b_ineq b) (b_div b) (b_rat b1 && b_rat b2) false false).
(** isl_basic_map_apply_range, isl_map.c:4753-4803 *)
Definition apply_range (b1 b2 : bmap) : res bmap :=
  if negb (Nat.eqb (b_param b1) (b_param b2)) || negb (Nat.eqb (b_out b1) (b_in b2)) then Null
  else
    let np := b_param b1 in
    let n := b_out b1 in
    let p2 := np + b_in b1 in
    let p3 := p2 + b_out b2 in
    let p4 := p3 + ndiv b1 in
    let p5 := p4 + ndiv b2 in
    let tot := p5 + n in
    let m1 := dm_out (dm_div (dm_in (dm_param (dm_alloc tot) b1 0) b1 np) b1 p3) b1 p5 in
    let m2 := dm_in (dm_div (dm_out (dm_param (dm_alloc tot) b2 0) b2 p2) b2 p4) b2 p5 in
    let b := add_mapped (add_mapped (fresh_map np (b_in b1) (b_out b2)) b1 m1) b2 m2 in
    simp_drop_fin (add_divs b n (2 + tot)).
(** isl_basic_map_apply_domain, isl_map.c:4819-4836 *)
Definition apply_domain (b1 b2 : bmap) : res bmap :=
  if negb (Nat.eqb (b_param b1) (b_param b2)) || negb (Nat.eqb (b_in b1) (b_in b2)) then Null
  else
    let! b1 := reverse b1 in
    let! b := apply_range b1 b2 in
    reverse b.
(** isl_basic_map_sum, isl_map.c:4841-4895 *)
Definition sum_row (np ni no nd tot i : nat) : row :=
  let o := np + ni + no + nd in
  zupd (zupd (zupd (repeat 0%Z (1 + tot)) (1 + np + ni + i) (-1)) (1 + o + no + i) 1) (1 + o + i) 1.
Definition sum (b1 b2 : bmap) : res bmap :=
  if negb (Nat.eqb (b_param b1) (b_param b2)) || negb (Nat.eqb (b_in b1) (b_in b2)) || negb (Nat.eqb (b_out b1) (b_out b2)) then Null
  else
    let np := b_param b1 in
    let ni := b_in b1 in
    let no := b_out b1 in
    let p3 := np + ni + no in
    let p4 := p3 + ndiv b1 in
    let p5 := p4 + ndiv b2 in
    let p6 := p5 + no in
    let tot := p6 + no in
    let m1 := dm_out (dm_div (dm_in (dm_param (dm_alloc tot) b1 0) b1 np) b1 p3) b1 p5 in
    let m2 := dm_out (dm_div (dm_in (dm_param (dm_alloc tot) b2 0) b2 np) b2 p4) b2 p6 in
    let b := set_eq (fresh_map np ni no) (map (sum_row np ni no (ndiv b1 + ndiv b2) tot) (seq 0 no)) in
    simp_fin (add_divs (add_mapped (add_mapped b b1 m1) b2 m2) (2 * no) (2 + tot)).
(** isl_basic_map_neg, isl_map.c:4943-4966 *)
Definition neg_row (pos n : nat) (r : row) : row := firstn pos r ++ map Z.opp (firstn n (skipn pos r)) ++ skipn (pos + n) r.
Definition neg (b : bmap) : res bmap :=
  let f := neg_row (1 + b_param b + b_in b) (b_out b) in
  let b := set_div (set_ineq (set_eq b (map f (b_eq b))) (map f (b_ineq b))) (map (fun d => hd 0%Z d :: f (tl d)) (b_div b)) in
  let! x := gauss b in Ok (finalize (fst x)).

(** move_last, isl_map.c:4383-4430: the [n] dimensions from position [pos] on,
    counting from the first parameter, are moved behind the others *)
Definition move_last (b : bmap) (pos n : nat) : bmap :=
  if Nat.eqb (pos + n) (nvar b) then b
  else
    let m := dm_alloc (total b) in
    let m := dm_block m 0 pos 0 in
    let m := dm_block m pos n (nvar b - n) in
    let m := dm_block m (pos + n) (nvar b - (pos + n)) pos in
    let m := dm_div m b (nvar b) in
    add_mapped (fresh_map (b_param b) (b_in b) (b_out b)) b m.
(** insert_div_rows, isl_map.c:4440-4474, including the change of the space of
    isl_basic_map_project_out: the last [n] dimensions become local variables *)
Definition insert_div_rows (b : bmap) (n np ni no : nat) : bmap :=
  mkb np ni no (b_eq b) (b_ineq b) (repeat (repeat 0%Z (2 + total b)) n ++ b_div b) (b_rat b) (b_empty b) false.
(** the three kinds of dimensions, isl_space.h enum isl_dim_type *)
Inductive kind_of_dim := DParam | DIn | DOut.
Definition dim_offset (b : bmap) (t : kind_of_dim) : nat :=
  match t with DParam => 0 | DIn => b_param b | DOut => b_param b + b_in b end.
Definition dim_count (b : bmap) (t : kind_of_dim) : nat :=
  match t with DParam => b_param b | DIn => b_in b | DOut => b_out b end.
Definition less (t t' : kind_of_dim) (n k : nat) : nat :=
  match t, t' with DParam, DParam | DIn, DIn | DOut, DOut => k - n | _, _ => k end.
(** isl_basic_map_project_out, isl_map.c:4523-4562, for a basic map that is not
    rational and of which no sample is known (so that
    drop_irrelevant_constraints, isl_map.c:4484-4514, does nothing) *)
Definition project_out (b : bmap) (t : kind_of_dim) (first n : nat) : res bmap :=
  if Nat.eqb n 0 then Ok b
  else
    let b := if b_empty b then set_to_empty b else b in
    if b_rat b then UB
    else if Nat.ltb (dim_count b t) (first + n) then Null
    else
      let b' := move_last b (dim_offset b t + first) n in
      simp_drop_fin (insert_div_rows b' n (less t DParam n (b_param b)) (less t DIn n (b_in b)) (less t DOut n (b_out b))).
(** isl_basic_map_domain, isl_map.c:5983-5996: the input dimensions become the
    set dimensions *)
Definition domain (b : bmap) : res bmap :=
  let! d := project_out b DOut 0 (b_out b) in
  Ok (reset_dims d (b_param b) 0 (b_in b)).
(** isl_basic_map_range, isl_map.c:6016-6028 *)
Definition range (b : bmap) : res bmap :=
  if Nat.eqb (b_in b) 0 then Ok b
  else let! r := reverse b in domain r.

(** ** maps *)

(** isl_map_add_basic_map, isl_map.c:6397-6419 *)
Definition add_basic_map (l : list bmap) (b : bmap) : list bmap := if b_empty b then l else l ++ [b].
(** the loop over the basic maps of both arguments, as in isl_map_apply_range,
    isl_map.c:8630-8638 *)
Fixpoint each_right (op : bmap -> bmap -> res bmap) (acc : list bmap) (b1 : bmap) (l2 : list bmap) : res (list bmap) :=
  match l2 with
  | [] => Ok acc
  | b2 :: t => let! b := op b1 b2 in each_right op (add_basic_map acc b) b1 t
  end.
Fixpoint each_pair (op : bmap -> bmap -> res bmap) (acc : list bmap) (l1 l2 : list bmap) : res (list bmap) :=
  match l1 with
  | [] => Ok acc
  | b1 :: t => let! acc := each_right op acc b1 l2 in each_pair op acc t l2
  end.
(** the loop over the basic maps of one argument, as in isl_map_transform,
    isl_map.c:6127-6150 *)
Fixpoint each (op : bmap -> res bmap) (l : list bmap) : res (list bmap) :=
  match l with
  | [] => Ok []
  | b :: t => let! b' := op b in let! t' := each op t in Ok (b' :: t')
  end.
(** isl_map_apply_range, isl_map.c:8612-8646 *)
Definition map_apply_range (l1 l2 : list bmap) : res (list bmap) := each_pair apply_range [] l1 l2.
(** isl_map_reverse, isl_map.c:7182-7186 *)
Definition map_reverse (l : list bmap) : res (list bmap) := each reverse l.
(** isl_map_apply_domain, isl_map.c:8598-8610 *)
Definition map_apply_domain (l1 l2 : list bmap) : res (list bmap) :=
  let! l1 := map_reverse l1 in
  let! l := map_apply_range l1 l2 in
  map_reverse l.
(** isl_map_project_out, isl_map.c:4579-4612 *)
Definition map_project_out (l : list bmap) (t : kind_of_dim) (first n : nat) : res (list bmap) :=
  if Nat.eqb n 0 then Ok l else each (fun b => project_out b t first n) l.
(** isl_map_domain, isl_map.c:8129-8142, and isl_map_range, isl_map.c:6109-6122,
    for a map with [np] parameters, [ni] input and [no] output dimensions *)
Definition map_domain (np ni no : nat) (l : list bmap) : res (list bmap) :=
  let! l := map_project_out l DOut 0 no in Ok (map (fun b => reset_dims b np 0 ni) l).
Definition map_range (np ni no : nat) (l : list bmap) : res (list bmap) :=
  let! l := map_project_out l DIn 0 ni in Ok (map (fun b => reset_dims b np 0 no) l).
(** isl_map_plain_is_universe, isl_map.c:9358-9372 *)
Definition map_plain_universe (l : list bmap) : bool := existsb plain_universe l.
(** the basic map that is marked empty by isl_basic_map_is_empty, isl_map.c:9379-9422 *)
Definition mark_empty (b : bmap) : bmap :=
  if is_empty b then mkb (b_param b) (b_in b) (b_out b) (b_eq b) (b_ineq b) (b_div b) (b_rat b) true (b_nd b) else b.
(** map_product, isl_map.c:10887-10938, without the removal of duplicates at the end *)
Definition map_product (op : bmap -> bmap -> res bmap) (l1 l2 : list bmap) : res (list bmap) :=
  each_pair (fun b1 b2 => let! b := op b1 b2 in Ok (mark_empty b)) [] l1 l2.
(** map_intersect_set, isl_map.c:8292-8323; isl_map_intersect_range,
    isl_map.c:8325-8345; isl_map_intersect_domain, isl_map.c:8353-8376 *)
Definition map_intersect_set (op : bmap -> bmap -> res bmap) (l s : list bmap) : res (list bmap) :=
  if map_plain_universe s then Ok l else each_pair op [] l s.
Definition map_intersect_domain (l s : list bmap) : res (list bmap) := map_intersect_set intersect_domain l s.
Definition map_intersect_range (l s : list bmap) : res (list bmap) := map_intersect_set intersect_range l s.

(** ** equality of representations *)

(** the comparison of the rows of isl_basic_map_plain_cmp, isl_map.c:10361-10370 *)
Fixpoint rows_cmp (l1 l2 : list row) : Z :=
  match l1, l2 with
  | r1 :: t1, r2 :: t2 => let c := seq_cmp r1 r2 in if Z.eqb c 0 then rows_cmp t1 t2 else c
  | _, _ => 0%Z
  end.
(** the loop over the integer divisions, isl_map.c:10371-10387 *)
Fixpoint divs_cmp (l1 l2 : list row) : Z :=
  match l1, l2 with
  | d1 :: t1, d2 :: t2 =>
    match Z.eqb (hd 0%Z d1) 0, Z.eqb (hd 0%Z d2) 0 with
    | true, true => divs_cmp t1 t2
    | true, false => 1%Z
    | false, true => (-1)%Z
    | false, false => let c := seq_cmp d1 d2 in if Z.eqb c 0 then divs_cmp t1 t2 else c
    end
  | _, _ => 0%Z
  end.
(** isl_basic_map_plain_cmp, isl_map.c:10325-10389, for basic maps with the same space *)
Definition plain_cmp (b1 b2 : bmap) : Z :=
  if negb (Bool.eqb (b_rat b1) (b_rat b2)) then (if b_rat b1 then -1 else 1)%Z
  else if b_empty b1 && b_empty b2 then 0%Z
  else if b_empty b1 then 1%Z
  else if b_empty b2 then (-1)%Z
  else if negb (Nat.eqb (length (b_eq b1)) (length (b_eq b2))) then (Z.of_nat (length (b_eq b1)) - Z.of_nat (length (b_eq b2)))%Z
  else if negb (Nat.eqb (length (b_ineq b1)) (length (b_ineq b2))) then (Z.of_nat (length (b_ineq b1)) - Z.of_nat (length (b_ineq b2)))%Z
  else if negb (Nat.eqb (ndiv b1) (ndiv b2)) then (Z.of_nat (ndiv b1) - Z.of_nat (ndiv b2))%Z
  else
    let c := rows_cmp (b_eq b1) (b_eq b2) in
    if negb (Z.eqb c 0) then c
    else
      let c := rows_cmp (b_ineq b1) (b_ineq b2) in
      if negb (Z.eqb c 0) then c else divs_cmp (b_div b1) (b_div b2).
(** isl_basic_map_normalize, isl_map.c:10318-10324 *)
Definition normalize (b : bmap) : res bmap :=
  let! b := remove_redundancies no_redundant tab b in sort_constraints b.
(** the loop of sort_and_remove_duplicates, isl_map.c:10454-10461, on the basic
    maps below position [i] + 1: of two equal neighbours the first one goes *)
Fixpoint dedup (i : nat) (l : list bmap) : list bmap :=
  match i with
  | O => l
  | S i' => dedup i' (if Z.eqb (plain_cmp (nth i' l (fresh_map 0 0 0)) (nth i l (fresh_map 0 0 0))) 0 then ldrop l i' else l)
  end.
(** qsort, for which any correct sort may be used; isl_map_remove_empty_parts,
    isl_map.c:9842-9853 *)
Variable qsort : list bmap -> list bmap.
(** sort_and_remove_duplicates, isl_map.c:10444-10462 *)
Definition sort_and_remove_duplicates (l : list bmap) : list bmap :=
  let l := qsort (filter (fun b => negb (b_empty b)) l) in
  dedup (length l - 1) l.
(** isl_map_normalize, isl_map.c:10502-10526 *)
Definition map_normalize (l : list bmap) : res (list bmap) :=
  let! l := each normalize l in Ok (sort_and_remove_duplicates l).
(** isl_map_remove_obvious_duplicates, isl_map.c:10474-10496 *)
Definition remove_obvious_duplicates (l : list bmap) : res (list bmap) :=
  if Nat.leb (length l) 1 then Ok l
  else let! l := each sort_constraints l in Ok (sort_and_remove_duplicates l).
(** isl_map_plain_is_equal, isl_map.c:10533-10567, for maps with the same space *)
Definition map_plain_equal (l1 l2 : list bmap) : res bool :=
  let! l1 := map_normalize l1 in
  let! l2 := map_normalize l2 in
  Ok (Nat.eqb (length l1) (length l2) && forallb (fun x => Z.eqb (plain_cmp (fst x) (snd x)) 0) (combine l1 l2)).

(** isl_map_product, isl_map.c:10942-10948; isl_map_domain_product,
    isl_map.c:10978-10984; isl_map_range_product, isl_map.c:10988-10994 *)
Definition map_full_product (l1 l2 : list bmap) : res (list bmap) := map_product product l1 l2.
Definition map_domain_product (l1 l2 : list bmap) : res (list bmap) :=
  let! l := map_product domain_product l1 l2 in remove_obvious_duplicates l.
Definition map_range_product (l1 l2 : list bmap) : res (list bmap) :=
  let! l := map_product range_product l1 l2 in remove_obvious_duplicates l.
(** isl_map_sum, isl_map.c:4900-4932 *)
Definition map_sum (l1 l2 : list bmap) : res (list bmap) := map_product sum l1 l2.
(** isl_map_neg, isl_map.c:4975-4993 *)
Definition map_neg (l : list bmap) : res (list bmap) := each neg l.

(** map_union_disjoint, isl_map.c:8154-8215 *)
Definition map_union_disjoint (l1 l2 : list bmap) : list bmap :=
  if Nat.eqb (length l1) 0 then l2
  else if Nat.eqb (length l2) 0 then l1
  else if map_plain_universe l1 then l1
  else if map_plain_universe l2 then l2
  else fold_left add_basic_map l2 (fold_left add_basic_map l1 []).
(** isl_map_union, isl_map.c:8246-8272 *)
Definition map_union (l1 l2 : list bmap) : res (list bmap) :=
  let! e := map_plain_equal l1 l2 in
  Ok (if e then l1 else map_union_disjoint l1 l2).

(** is_convex_no_locals, isl_map.c:3785-3799 *)
Definition is_convex_no_locals (l : list bmap) : bool :=
  match l with [b] => Nat.eqb (ndiv b) 0 | _ => false end.
Definition n_constraints (l : list bmap) : nat :=
  match l with b :: _ => length (b_eq b) + length (b_ineq b) | [] => 0 end.
(** the addition of a single constraint in map_intersect_add_constraint,
    isl_map.c:3823-3864, when the second map has it; isl_basic_map_add_eq,
    isl_map.c:1808-1834, and isl_basic_map_add_ineq, isl_map.c:1842-1861 *)
Definition intersect_add_constraint (b1 b2 : bmap) : res (list bmap) :=
  let b1' := if Nat.eqb (length (b_eq b2)) 1
             then if b_empty b1 then b1 else set_nd (set_eq b1 (b_eq b1 ++ [pad (ndiv b1) (nth 0 (b_eq b2) [])])) false
             else set_ineq b1 (b_ineq b1 ++ [pad (ndiv b1) (nth 0 (b_ineq b2) [])]) in
  let! b := simp_fin b1' in
  Ok (if b_empty b then [] else [b]).
(** map_intersect_internal, isl_map.c:3869-3944, for maps with the same space;
    isl_map_intersect, isl_map.c:3958-3963 *)
Definition map_intersect (l1 l2 : list bmap) : res (list bmap) :=
  if Nat.eqb (length l1) 0 || map_plain_universe l2 then Ok l1
  else if Nat.eqb (length l2) 0 || map_plain_universe l1 then Ok l2
  else if is_convex_no_locals l1 && is_convex_no_locals l2 && (Nat.eqb (n_constraints l1) 1 || Nat.eqb (n_constraints l2) 1) then
    match l1, l2 with
    | [b1], [b2] => if Nat.eqb (n_constraints l2) 1 then intersect_add_constraint b1 b2 else intersect_add_constraint b2 b1
    | _, _ => Null
    end
  else
    let! e := map_plain_equal l1 l2 in
    if e then Ok l1 else map_product intersect l1 l2.
End Params.
