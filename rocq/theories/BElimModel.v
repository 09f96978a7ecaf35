(** Model of the removal of redundant constraints (up to the classification of
    the constraints by the tableau, which is a parameter here), isl_convex_hull.c
    and isl_tab.c, and of Fourier-Motzkin elimination, isl_map_simplify.c. *)
From Coq Require Import ZArith List Bool Arith.
From Verif Require Import SeqModel MatModel SortModel BMapModel BDupModel.
Import ListNotations.
Open Scope Z_scope.

(** ** sorting the inequalities *)

(** the result of isl_seq_last_non_zero as an integer *)
Definition last_pos (o : option nat) : Z := match o with Some i => Z.of_nat i | None => -1 end.
(** the first [size] elements of an array *)
Definition elems (size : nat) (r : row) : row := map (fun i => nth i r 0) (seq 0 size).
(** sort_constraint_cmp, isl_map.c:10247-10269 *)
Definition sort_constraint_cmp (size : nat) (c1 c2 : row) : Z :=
  let l1 := last_pos (seq_last_non_zero (elems size (tl c1))) in
  let l2 := last_pos (seq_last_non_zero (elems size (tl c2))) in
  if negb (l1 =? l2) then l1 - l2
  else
    let x1 := nth (Z.to_nat (1 + l1)) c1 0 in
    let x2 := nth (Z.to_nat (1 + l1)) c2 0 in
    let cmp := int_cmp (Z.abs x1) (Z.abs x2) in
    if negb (cmp =? 0) then cmp
    else
      let cmp := int_cmp x1 x2 in
      if negb (cmp =? 0) then - cmp
      else seq_cmp (elems size (tl c1)) (elems size (tl c2)).
(** isl_basic_map_sort_constraints, isl_map.c:10288-10309; the flag SORTED is
    not modelled, the sort is stable and does not change a sorted array *)
Definition sort_constraints (b : bmap) : res bmap :=
  match isl_sort (sort_constraint_cmp (total b)) true (b_ineq b) with
  | SOk l => Ok (set_ineq b l)
  | SErr _ => Null
  | SUB => UB
  end.

(** ** redundant constraints *)

(** what the tableau knows about an inequality: isl_tab_is_equality,
    isl_tab.c:3315-3335, isl_tab_is_redundant, isl_tab.c:3425-3434 *)
Inductive kind := Equality | Redundant | Other.
(** the loop of isl_basic_map_update_from_tab, isl_tab.c:2639-2644, on the
    inequalities below position [i] *)
Fixpoint update_loop (i : nat) (ks : list kind) (b : bmap) : bmap :=
  match i with
  | O => b
  | S i' =>
    update_loop i' ks
      match nth i' ks Other with
      | Equality => inequality_to_equality b i'
      | Redundant => drop_inequality b i'
      | Other => b
      end
  end.
(** isl_basic_map_update_from_tab, isl_tab.c:2624-2651, for a tableau with as
    many equalities as the basic map; [e] tells whether the tableau is empty *)
Definition update_from_tab (b : bmap) (e : bool) (ks : list kind) : res bmap :=
  let n := length (b_eq b) in
  let b := if e then set_to_empty b else update_loop (length (b_ineq b)) ks b in
  if negb (Nat.eqb (length (b_eq b)) n) then
    match gauss b with Ok (b, _) => Ok b | Null => Null | UB => UB | Div => Div end
  else Ok b.

Section Params.
(** isl_seq_get_hash, isl_seq.c:338-343 *)
Variable hash : row -> nat.
(** whether the flag NO_REDUNDANT is set *)
Variable no_redundant : bmap -> bool.
(** the tableau constructed for a basic map, after isl_tab_detect_redundant:
    whether it is empty and what it knows about the inequalities *)
Variable tab : bmap -> bool * list kind.

(** isl_basic_map_remove_redundancies, isl_convex_hull.c:51-90 *)
Definition remove_redundancies (b : bmap) : res bmap :=
  match gauss b with
  | Ok (b, _) =>
    if b_empty b then Ok b
    else if no_redundant b then Ok b
    else if Nat.leb (length (b_ineq b)) 1 then Ok b
    else match sort_constraints b with
         | Ok b => let '(e, ks) := tab b in update_from_tab b e ks
         | Null => Null | UB => UB | Div => Div
         end
  | Null => Null | UB => UB | Div => Div
  end.

(** ** Fourier-Motzkin elimination *)

(** isl_basic_map_mark_div_unknown, isl_map.c:7958-7974, on the definition *)
Definition mark_unknown (d : row) : row := zupd d 0 0.
(** remove_dependent_vars, isl_map_simplify.c:1695-1713 *)
Definition remove_dependent_vars (b : bmap) (pos : nat) : bmap :=
  set_div b (map (fun d => if hd 0 d =? 0 then d else if nth (2 + pos) d 0 =? 0 then d else mark_unknown d) (b_div b)).
(** the loop isl_map_simplify.c:1733-1734, from variable [pos + n - 1] down *)
Fixpoint remove_dependent (b : bmap) (pos n : nat) : bmap :=
  match n with
  | O => b
  | S n' => remove_dependent (remove_dependent_vars b (pos + n')) pos n'
  end.
(** the loop isl_map_simplify.c:1738-1740: clear the definitions of the
    eliminated integer divisions *)
Fixpoint clear_divs (b : bmap) (pos n : nat) : bmap :=
  match n with
  | O => b
  | S n' =>
    let d := (pos + n')%nat in
    if Nat.leb (nvar b) d then
      clear_divs (set_div b (lset (b_div b) (d - nvar b) (repeat 0 (2 + total b)))) pos n'
    else b
  end.

(** the coefficient of variable [d] in a row *)
Definition coef (d : nat) (r : row) : Z := nth (1 + d) r 0.
(** the innermost loop, isl_map_simplify.c:1773-1788: the combinations of
    inequality [i] with the ones before it, and the value of last; [m] is one
    more than the loop counter, which runs upwards up to [i] *)
Fixpoint fm_pairs (d : nat) (l : list row) (i m : nat) : list row * option nat :=
  match m with
  | O => ([], None)
  | S j =>
    let '(new, last) := fm_pairs d l i j in
    let r := nth j l [] in
    if coef d r =? 0 then (new, last)
    else if Z.sgn (coef d (nth i l [])) =? Z.sgn (coef d r) then (new, Some j)
    else (new ++ [fst (seq_elim (nth i l []) r (1 + d) 1)], Some j)
  end.
(** the loop over the inequalities, isl_map_simplify.c:1769-1791; [n] is one
    more than the loop counter *)
Fixpoint fm_loop (fuel : nat) (d : nat) (l : list row) (n : nat) : res (list row) :=
  match fuel with
  | O => Div
  | S fuel' =>
    match n with
    | O => Ok l
    | S i =>
      if coef d (nth i l []) =? 0 then fm_loop fuel' d l i
      else
        let '(new, last) := fm_pairs d l i i in
        let l := drop_swap (l ++ new) i in
        (* i = last + 1, followed by --i *)
        fm_loop fuel' d l (match last with Some j => S j | None => 0 end)
    end
  end.
(** the part of the outer loop without an equality to use,
    isl_map_simplify.c:1757-1803; the flags are need_gauss and whether to leave
    the outer loop *)
Definition fm_step (b : bmap) (d : nat) (ng : bool) : res (bmap * bool * bool) :=
  let n_lower := length (filter (fun r => 0 <? coef d r) (b_ineq b)) in
  let n_upper := length (filter (fun r => coef d r <? 0) (b_ineq b)) in
  match fm_loop (S (length (b_ineq b))) d (b_ineq b) (length (b_ineq b)) with
  | Ok l =>
    let b := set_ineq b l in
    if Nat.ltb 0 n_lower && Nat.ltb 0 n_upper then
      match remove_duplicate_constraints hash (normalize_constraints b) false with
      | Ok (b, _) =>
        match gauss b with
        | Ok (b, _) =>
          match remove_redundancies b with
          | Ok b => Ok (b, false, b_empty b)
          | Null => Null | UB => UB | Div => Div
          end
        | Null => Null | UB => UB | Div => Div
        end
      | Null => Null | UB => UB | Div => Div
      end
    else Ok (b, ng, false)
  | Null => Null | UB => UB | Div => Div
  end.
(** the body of the outer loop, isl_map_simplify.c:1741-1804 *)
Definition elim_step (b : bmap) (d : nat) (ng : bool) : res (bmap * bool * bool) :=
  match find_eq_from (1 + d) 0 (b_eq b) with
  | Some i =>
    let b := drop_equality (eliminate_var_using_equality b d (nth i (b_eq b) []) (Some i) false) i in
    (* i < bmap->n_eq is tested after the equality has been removed *)
    if Nat.ltb i (length (b_eq b)) then Ok (b, true, false) else fm_step b d true
  | None => fm_step b d ng
  end.
(** the outer loop, from variable [pos + n - 1] down *)
Fixpoint elim_loop (b : bmap) (pos n : nat) (ng : bool) : res (bmap * bool) :=
  match n with
  | O => Ok (b, ng)
  | S n' =>
    match elim_step b (pos + n') ng with
    | Ok (b, ng, stop) => if stop then Ok (b, ng) else elim_loop b pos n' ng
    | Null => Null | UB => UB | Div => Div
    end
  end.
(** isl_basic_map_eliminate_vars, isl_map_simplify.c:1718-1811 *)
Definition eliminate_vars (b : bmap) (pos n : nat) : res bmap :=
  if Nat.eqb n 0 then Ok b
  else
    let b := clear_divs (remove_dependent b pos n) pos n in
    match elim_loop b pos n false with
    | Ok (b, true) => match gauss b with Ok (b, _) => Ok b | Null => Null | UB => UB | Div => Div end
    | Ok (b, false) => Ok b
    | Null => Null | UB => UB | Div => Div
    end.
End Params.
