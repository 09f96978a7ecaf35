(** Model of basic maps and their simplification, isl_map.c and
    isl_map_simplify.c.

    A row of the constraint matrix is the list of its 1 + total values (constant
    term, parameters, input, output and local variables); the definition of an
    integer division has the denominator in front of it, zero if the integer
    division does not have an explicit representation.  isl_int is Z.
    Not modelled: reference counts and copy-on-write, the sample point, spare
    room in the constraint arrays (so that isl_basic_map_extend does nothing and
    isl_basic_map_alloc_equality always appends, while the code inserts the new
    equality in front if there is no room behind the others), and the flags that
    are only used to avoid repeated work (FINAL, NO_IMPLICIT, NO_REDUNDANT,
    SORTED, ALL_EQUALITIES, REDUCED_COEFFICIENTS). *)
From Coq Require Import ZArith List Bool Arith.
From Verif Require Import SeqModel MatModel.
Import ListNotations.
Open Scope Z_scope.

Notation row := (list Z) (only parsing).

(** struct isl_basic_map, isl_map_private.h:37-80; [b_rat], [b_empty] and
    [b_nd] are the flags RATIONAL, EMPTY and NORMALIZED_DIVS *)
Record bmap := mkb {
  b_param : nat; b_in : nat; b_out : nat;
  b_eq : list row; b_ineq : list row; b_div : list row;
  b_rat : bool; b_empty : bool; b_nd : bool }.

(** isl_basic_map_var_offset of isl_dim_div, isl_map.c:144-163 *)
Definition nvar (b : bmap) : nat := b_param b + b_in b + b_out b.
Definition ndiv (b : bmap) : nat := length (b_div b).
(** isl_basic_map_dim with isl_dim_all, isl_map.c:80-94; isl_basic_map_total_dim,
    isl_map.c:232-242 *)
Definition total (b : bmap) : nat := nvar b + ndiv b.

(** changing one of the fields *)
Definition set_eq (b : bmap) (l : list row) : bmap :=
  mkb (b_param b) (b_in b) (b_out b) l (b_ineq b) (b_div b) (b_rat b) (b_empty b) (b_nd b).
Definition set_ineq (b : bmap) (l : list row) : bmap :=
  mkb (b_param b) (b_in b) (b_out b) (b_eq b) l (b_div b) (b_rat b) (b_empty b) (b_nd b).
Definition set_div (b : bmap) (l : list row) : bmap :=
  mkb (b_param b) (b_in b) (b_out b) (b_eq b) (b_ineq b) l (b_rat b) (b_empty b) (b_nd b).
Definition set_nd (b : bmap) (f : bool) : bmap :=
  mkb (b_param b) (b_in b) (b_out b) (b_eq b) (b_ineq b) (b_div b) (b_rat b) (b_empty b) f.

(** replacing and exchanging list elements *)
Fixpoint lset {A} (l : list A) (i : nat) (a : A) : list A :=
  match l, i with
  | [], _ => []
  | _ :: t, O => a :: t
  | x :: t, S i' => x :: lset t i' a
  end.
Definition lswap (l : list row) (i j : nat) : list row := lset (lset l i (nth j l [])) j (nth i l []).
Definition ldrop {A} (l : list A) (i : nat) : list A := firstn i l ++ skipn (S i) l.

(** isl_basic_map_drop_equality, isl_map.c:1694-1710 *)
Definition drop_equality (b : bmap) (pos : nat) : bmap := set_eq b (ldrop (b_eq b) pos).
(** isl_basic_map_free_equality, isl_map.c:1671-1682 *)
Definition free_equality (b : bmap) (n : nat) : bmap := set_eq b (firstn (length (b_eq b) - n) (b_eq b)).
(** isl_basic_map_drop_inequality, isl_map.c:1786-1801 *)
Definition drop_swap (l : list row) (pos : nat) : list row :=
  removelast (lset l pos (last l [])).
Definition drop_inequality (b : bmap) (pos : nat) : bmap := set_ineq b (drop_swap (b_ineq b) pos).
(** isl_basic_map_inequality_to_equality, isl_map.c:1719-1735 *)
Definition inequality_to_equality (b : bmap) (pos : nat) : bmap :=
  set_nd (set_eq (drop_inequality b pos) (nth pos (b_ineq b) [] :: b_eq b)) false.
(** isl_basic_map_set_to_empty, isl_map.c:2167-2207, including
    isl_basic_map_finalize *)
Definition set_to_empty (b : bmap) : bmap :=
  if b_empty b && Nat.eqb (length (b_eq b) + length (b_ineq b)) 0 then b
  else mkb (b_param b) (b_in b) (b_out b) [1 :: repeat 0 (nvar b)] [] [] (b_rat b) true (b_nd b).

(** ** isl_basic_map_normalize_constraints *)

(** what happens to a constraint *)
Inductive verdict := Keep (r : row) | Drop | Contradiction.

(** the body of the first loop of isl_basic_map_normalize_constraints,
    isl_map_simplify.c:58-78 *)
Definition normalize_eq (rat : bool) (r : row) : verdict :=
  let gcd := seq_gcd (tl r) in
  if gcd =? 0 then if negb (hd 0 r =? 0) then Contradiction else Drop
  else
    let gcd := if rat then Z.gcd gcd (hd 0 r) else gcd in
    if gcd =? 1 then Keep r
    else if negb (hd 0 r mod gcd =? 0) then Contradiction
    else Keep (seq_scale_down r gcd).
(** the body of the second loop, isl_map_simplify.c:80-97 *)
Definition normalize_ineq (rat : bool) (r : row) : verdict :=
  let gcd := seq_gcd (tl r) in
  if gcd =? 0 then if hd 0 r <? 0 then Contradiction else Drop
  else
    let gcd := if rat then Z.gcd gcd (hd 0 r) else gcd in
    if gcd =? 1 then Keep r
    else Keep (fdiv_q (hd 0 r) gcd :: seq_scale_down (tl r) gcd).
(** the first loop; [i] is one more than the loop counter, [None] if the basic
    map is set to empty *)
Fixpoint normalize_eqs (rat : bool) (i : nat) (l : list row) : option (list row) :=
  match i with
  | O => Some l
  | S i' =>
    match normalize_eq rat (nth i' l []) with
    | Contradiction => None
    | Drop => normalize_eqs rat i' (ldrop l i')
    | Keep r => normalize_eqs rat i' (lset l i' r)
    end
  end.
(** the second loop *)
Fixpoint normalize_ineqs (rat : bool) (i : nat) (l : list row) : option (list row) :=
  match i with
  | O => Some l
  | S i' =>
    match normalize_ineq rat (nth i' l []) with
    | Contradiction => None
    | Drop => normalize_ineqs rat i' (drop_swap l i')
    | Keep r => normalize_ineqs rat i' (lset l i' r)
    end
  end.
(** isl_basic_map_normalize_constraints, isl_map_simplify.c:47-105; after the
    first loop has set the basic map to empty, there are no inequalities left *)
Definition normalize_constraints (b : bmap) : bmap :=
  match normalize_eqs (b_rat b) (length (b_eq b)) (b_eq b) with
  | None => set_to_empty b
  | Some le =>
    let b := set_eq b le in
    match normalize_ineqs (b_rat b) (length (b_ineq b)) (b_ineq b) with
    | None => set_to_empty b
    | Some li => set_ineq b li
    end
  end.

(** ** elimination of a variable using an equality *)

(** normalize_div_expression, isl_map_simplify.c:246-268, on the definition *)
Definition normalize_div_row (d : row) : row :=
  if hd 0 d =? 0 then d
  else
    let g := Z.gcd (seq_gcd (skipn 2 d)) (hd 0 d) in
    if g =? 1 then d
    else divexact (hd 0 d) g :: fdiv_q (nth 1 d 0) g :: seq_scale_down (skipn 2 d) g.
(** the loops of eliminate_var_using_equality, isl_map_simplify.c:315-335, on
    one constraint *)
Definition elim_row (eq : row) (pos : nat) (r : row) : row :=
  if nth (1 + pos) r 0 =? 0 then r
  else seq_normalize (fst (seq_elim r eq (1 + pos) 1)).
(** the loop over the equalities; [skip] is the position of the equality that
    is used, if it is an equality of the basic map, [i] the position of the
    first element of [l] *)
Fixpoint elim_eqs (eq : row) (pos : nat) (skip : option nat) (i : nat) (l : list row) : list row :=
  match l with
  | [] => []
  | r :: l' =>
    (if match skip with Some k => Nat.eqb k i | None => false end then r else elim_row eq pos r)
      :: elim_eqs eq pos skip (S i) l'
  end.
(** the last loop of eliminate_var_using_equality, isl_map_simplify.c:337-359,
    on the definition of integer division [k]; isl_seq_clr leaves the last
    coefficient in place *)
Definition elim_div (eq : row) (pos : nat) (keep_divs : bool) (last_div : option nat) (k : nat) (d : row) : row :=
  if hd 0 d =? 0 then d
  else if nth (2 + pos) d 0 =? 0 then d
  else if match last_div with None => true | Some l => keep_divs && Nat.ltb l k end then
    let '(e, m) := seq_elim (tl d) eq (1 + pos) (hd 0 d) in
    normalize_div_row (m :: e)
  else repeat 0 (length d - 1) ++ [last d 0].
Fixpoint elim_divs (eq : row) (pos : nat) (keep_divs : bool) (last_div : option nat) (k : nat) (l : list row) : list row :=
  match l with
  | [] => []
  | d :: l' => elim_div eq pos keep_divs last_div k d :: elim_divs eq pos keep_divs last_div (S k) l'
  end.
(** eliminate_var_using_equality, isl_map_simplify.c:301-362 *)
Definition eliminate_var_using_equality (b : bmap) (pos : nat) (eq : row) (skip : option nat) (keep_divs : bool) : bmap :=
  let last_div := seq_last_non_zero (skipn (1 + nvar b) eq) in
  set_div (set_ineq (set_eq b (elim_eqs eq pos skip 0 (b_eq b)))
                    (map (elim_row eq pos) (b_ineq b)))
          (elim_divs eq pos keep_divs last_div 0 (b_div b)).

(** whether eliminate_var_using_equality sets *progress *)
Fixpoint elim_eqs_progress (pos : nat) (skip : option nat) (i : nat) (l : list row) : bool :=
  match l with
  | [] => false
  | r :: l' =>
    (if match skip with Some k => Nat.eqb k i | None => false end then false else negb (nth (1 + pos) r 0 =? 0))
      || elim_eqs_progress pos skip (S i) l'
  end.
Definition elim_progress (b : bmap) (pos : nat) (skip : option nat) : bool :=
  elim_eqs_progress pos skip 0 (b_eq b)
  || existsb (fun r => negb (nth (1 + pos) r 0 =? 0)) (b_ineq b)
  || existsb (fun d => negb (hd 0 d =? 0) && negb (nth (2 + pos) d 0 =? 0)) (b_div b).

(** isl_basic_map_swap_div, isl_map.c:2293-2316 *)
Definition swap_row (off a b : nat) (r : row) : row :=
  zupd (zupd r (off + a) (nth (off + b) r 0)) (off + b) (nth (off + a) r 0).
Definition swap_div (m : bmap) (a b : nat) : bmap :=
  let o := nvar m in
  set_div (set_ineq (set_eq m (map (swap_row (1 + o) a b) (b_eq m))) (map (swap_row (1 + o) a b) (b_ineq m)))
          (map (swap_row (2 + o) a b) (lswap (b_div m) a b)).
(** isl_basic_map_order_divs, isl_map.c:9491-9519; [i] is the loop counter *)
Fixpoint order_divs_loop (fuel : nat) (b : bmap) (i : nat) : res bmap :=
  match fuel with
  | O => Div
  | S fuel' =>
    if Nat.leb (ndiv b) i then Ok b
    else
      let d := nth i (b_div b) [] in
      if hd 0 d =? 0 then order_divs_loop fuel' b (S i)
      else match seq_first_non_zero (skipn (2 + nvar b + i) d) with
           | None => order_divs_loop fuel' b (S i)
           | Some O => Null
           | Some pos => order_divs_loop fuel' (swap_div b i (i + pos)) i
           end
  end.
Definition order_divs (b : bmap) : res bmap := order_divs_loop (S (ndiv b * S (ndiv b))) b 0.

(** bmap_eq_involves_unknown_divs with first 0, isl_map_simplify.c:497-520 *)
Definition eq_involves_unknown_divs (b : bmap) (eq : row) (n : nat) : bool :=
  existsb (fun i => negb (nth (1 + nvar b + i) eq 0 =? 0) && (hd 0 (nth i (b_div b) []) =? 0)) (seq 0 n).
(** set_div_from_eq, isl_map_simplify.c:545-575; the flag is *progress *)
Definition set_div_from_eq (b : bmap) (div eq : nat) : bmap * bool :=
  let r := nth eq (b_eq b) [] in
  if negb (hd 0 (nth div (b_div b) []) =? 0) then (b, false)
  else if eq_involves_unknown_divs b r div then (b, false)
  else (set_div b (lset (b_div b) div
         (nth (1 + nvar b + div) r 0 :: zupd (seq_neg r) (1 + nvar b + div) 0)), true).

(** ** isl_basic_map_gauss5 *)

(** the innermost loop, isl_map_simplify.c:620-622: the first equality from
    position [k] on with a non-zero coefficient *)
Fixpoint find_eq_from (c : nat) (k : nat) (l : list row) : option nat :=
  match l with
  | [] => None
  | r :: l' => if negb (nth c r 0 =? 0) then Some k else find_eq_from c (S k) l'
  end.
Definition find_eq (b : bmap) (done c : nat) : option nat := find_eq_from c done (skipn done (b_eq b)).
(** the body of the outer loop, isl_map_simplify.c:628-641, for the variable
    [v] and the equality [k] *)
Definition gauss_step (b : bmap) (done k v : nat) : bmap * bool :=
  let b := if Nat.eqb k done then b else set_eq b (lswap (b_eq b) k done) in
  let r := nth done (b_eq b) [] in
  let b := if nth (1 + v) r 0 <? 0 then set_eq b (lset (b_eq b) done (seq_neg r)) else b in
  let p := elim_progress b v (Some done) in
  let b := eliminate_var_using_equality b v (nth done (b_eq b) []) (Some done) true in
  if Nat.leb (nvar b) v then let '(b, p') := set_div_from_eq b (v - nvar b) done in (b, p || p') else (b, p).
(** the two outer loops, isl_map_simplify.c:618-644; [lv] is one more than
    last_var, [p] is *progress.  Returns [done] as well *)
Fixpoint gauss_loop (fuel : nat) (b : bmap) (p : bool) (done lv : nat) : res (bmap * bool * nat) :=
  match fuel with
  | O => Div
  | S fuel' =>
    if Nat.leb (length (b_eq b)) done then Ok (b, p, done)
    else match lv with
         | O => Ok (b, p, done)
         | S v =>
           match find_eq b done (1 + v) with
           | None => gauss_loop fuel' b p done v
           | Some k => let '(b, p') := gauss_step b done k v in gauss_loop fuel' b (p || p') (S done) lv
           end
         end
  end.
(** isl_basic_map_gauss5 after the divs have been ordered, without its
    callbacks, isl_map_simplify.c:596-659 *)
Definition gauss_ordered (b : bmap) : res (bmap * bool) :=
  match gauss_loop (S (length (b_eq b) + total b)) b false 0 (total b) with
  | Ok (b, p, done) =>
    if Nat.eqb done (length (b_eq b)) then Ok (b, p)
    else if existsb (fun r => negb (hd 0 r =? 0)) (skipn done (b_eq b)) then Ok (set_to_empty b, p)
    else Ok (free_equality b (length (b_eq b) - done), p)
  | Null => Null | UB => UB | Div => Div
  end.
(** isl_basic_map_gauss, isl_map_simplify.c:661-665, isl_basic_map_gauss5
    without callbacks; the flag is *progress *)
Definition gauss (b : bmap) : res (bmap * bool) :=
  match order_divs b with
  | Ok b => gauss_ordered b
  | Null => Null | UB => UB | Div => Div
  end.
