(** Model of isl_basic_map_simplify and isl_basic_map_finalize,
    isl_map_simplify.c, and the functions they use. *)
From Coq Require Import ZArith List Bool Arith.
From Verif Require Import SeqModel MatModel BMapModel BDupModel BElimModel EqModel.
Import ListNotations.
Open Scope Z_scope.

(** ** integer divisions: dropping, adding and shifting *)

(** isl_basic_map_drop_core with isl_dim_div and n = 1, isl_map.c:2387-2428;
    isl_basic_map_drop_div, isl_map.c:2516-2520 *)
Definition drop_div (b : bmap) (d : nat) : bmap :=
  let o := (1 + nvar b + d)%nat in
  mkb (b_param b) (b_in b) (b_out b)
      (map (fun r => ldrop r o) (b_eq b)) (map (fun r => ldrop r o) (b_ineq b))
      (ldrop (map (fun r => ldrop r (1 + o)) (b_div b)) d)
      (b_rat b) (b_empty b) (b_nd b).
(** isl_basic_map_alloc_div, isl_map.c:1869-1881: the columns behind the last
    integer division are zero; [d] is the definition that is filled in *)
Definition alloc_div (b : bmap) (d : row) : bmap :=
  mkb (b_param b) (b_in b) (b_out b)
      (map (fun r => r ++ [0]) (b_eq b)) (map (fun r => r ++ [0]) (b_ineq b))
      (map (fun r => r ++ [0]) (b_div b) ++ [d])
      (b_rat b) (b_empty b) false.
(** one of the loops of isl_basic_map_shift_div, on a row: add [- shift] times
    the coefficient at position [c] to the one at position [pos] *)
Definition shift_row (pos c : nat) (shift : Z) (r : row) : row :=
  if nth c r 0 =? 0 then r else zupd r pos (nth pos r 0 - shift * nth c r 0).
(** isl_basic_map_shift_div, isl_map_simplify.c:5506-5544 *)
Definition shift_div (b : bmap) (div pos : nat) (shift : Z) : bmap :=
  if shift =? 0 then b
  else
    let c := (1 + nvar b + div)%nat in
    let d := nth div (b_div b) [] in
    let ds := lset (b_div b) div (zupd d (1 + pos) (nth (1 + pos) d 0 + shift * hd 0 d)) in
    set_div (set_ineq (set_eq b (map (shift_row pos c shift) (b_eq b)))
                      (map (shift_row pos c shift) (b_ineq b)))
            (map (fun r => if hd 0 r =? 0 then r else shift_row (1 + pos) (1 + c) shift r) ds).
(** reduce_coefficient_in_div, isl_map_simplify.c:134-152 *)
Definition reduce_coefficient_in_div (b : bmap) (div pos : nat) : bmap :=
  let d := nth div (b_div b) [] in
  let shift := fdiv_r (nth (1 + pos) d 0) (hd 0 d) * 2 in
  let add_one := hd 0 d <? shift in
  let shift := fdiv_q (nth (1 + pos) d 0) (hd 0 d) in
  let shift := if add_one then shift + 1 else shift in
  shift_div b div pos (- shift).
(** needs_reduction, isl_map_simplify.c:160-175 *)
Definition needs_reduction (b : bmap) (div pos : nat) : bool :=
  let d := nth div (b_div b) [] in
  let c := nth (1 + pos) d 0 in
  if c =? 0 then false
  else (Z.abs (hd 0 d) <=? Z.abs (c * 2)) && negb (c * 2 =? hd 0 d).
(** reduce_div_coefficients_of_div, isl_map_simplify.c:182-205; the loop over
    the positions [l] *)
Definition reduce_div_coefficients_of_div (b : bmap) (div : nat) : bmap :=
  fold_left (fun b i => if needs_reduction b div i then reduce_coefficient_in_div b div i else b)
            (seq 0 (1 + total b)) b.
(** reduce_div_coefficients, isl_map_simplify.c:212-231 *)
Definition reduce_div_coefficients (b : bmap) : bmap :=
  fold_left (fun b i => if hd 0 (nth i (b_div b) []) =? 0 then b else reduce_div_coefficients_of_div b i)
            (seq 0 (ndiv b)) b.
(** normalize_div_expressions, isl_map_simplify.c:283-297 *)
Definition normalize_div_expressions (b : bmap) : bmap := set_div b (map normalize_div_row (b_div b)).

(** ** elimination of integer divisions *)

(** eliminate_div, isl_map_simplify.c:366-381 *)
Definition eliminate_div (b : bmap) (eq : row) (skip : option nat) (div : nat) (keep_divs : bool) : bmap :=
  drop_div (eliminate_var_using_equality b (nvar b + div) eq skip keep_divs) div.
(** ok_to_eliminate_div, isl_map_simplify.c:386-410 *)
Definition ok_to_eliminate_div (b : bmap) (eq : row) (div : nat) : bool :=
  match seq_last_non_zero (skipn (1 + nvar b) eq) with
  | None => true
  | Some last =>
    if Nat.leb last div then true
    else forallb (fun k => (hd 0 (nth k (b_div b) []) =? 0) || (nth (2 + nvar b + div) (nth k (b_div b) []) 0 =? 0))
                 (seq 0 (S last))
  end.
(** the inner loop of eliminate_divs_eq, isl_map_simplify.c:431-448, up to the
    elimination: the position of the equality that is used; [i] is the position
    of the first element of [l] *)
Fixpoint find_unit_eq (b : bmap) (d : nat) (i : nat) (l : list row) : option nat :=
  match l with
  | [] => None
  | r :: l' =>
    let c := nth (1 + nvar b + d) r 0 in
    if ((c =? 1) || (c =? -1)) && ok_to_eliminate_div b r d then Some i else find_unit_eq b d (S i) l'
  end.
(** the outer loop of eliminate_divs_eq, isl_map_simplify.c:430-449; [n] is one
    more than the loop counter, the flag is modified *)
Fixpoint elim_divs_eq_loop (b : bmap) (n : nat) (modified : bool) : bmap * bool :=
  match n with
  | O => (b, modified)
  | S d =>
    match find_unit_eq b d 0 (b_eq b) with
    | Some i => elim_divs_eq_loop (drop_equality (eliminate_div b (nth i (b_eq b) []) (Some i) d true) i) d true
    | None => elim_divs_eq_loop b d modified
    end
  end.
(** eliminate_divs_eq, isl_map_simplify.c:415-453; the flag is *progress *)
Fixpoint eliminate_divs_eq_rec (fuel : nat) (b : bmap) (p : bool) : res (bmap * bool) :=
  match fuel with
  | O => Div
  | S fuel' =>
    match order_divs b with
    | Ok b =>
      let '(b, modified) := elim_divs_eq_loop b (ndiv b) false in
      if modified then eliminate_divs_eq_rec fuel' b true else Ok (b, p)
    | Null => Null | UB => UB | Div => Div
    end
  end.
Definition eliminate_divs_eq (b : bmap) (p : bool) : res (bmap * bool) := eliminate_divs_eq_rec (S (ndiv b)) b p.

Section Params.
(** isl_seq_get_hash, isl_seq.c:338-343, the flag NO_REDUNDANT and the
    tableau, as in BElimModel.v *)
Variable hash : row -> nat.
Variable no_redundant : bmap -> bool.
Variable tb : bmap -> bool * list kind.

(** ** duplicate integer divisions *)

(** the search in the table of remove_duplicate_divs,
    isl_map_simplify.c:864-868 *)
Fixpoint div_slot (fuel : nat) (t : list (option nat)) (ds : list row) (d : row) (h : nat) : res nat :=
  match fuel with
  | O => Div
  | S fuel' =>
    match nth h t None with
    | None => Ok h
    | Some j => if seq_eq d (nth j ds []) then Ok h else div_slot fuel' t ds d ((h + 1) mod length t)
    end
  end.
(** the loop isl_map_simplify.c:857-875; [n] is one more than the loop
    counter, [ef] is the array elim_for *)
Fixpoint dup_divs_loop (n : nat) (t : list (option nat)) (ds : list row) (ef : list (option nat)) (p : bool) : res (list (option nat) * bool) :=
  match n with
  | O => Ok (ef, p)
  | S k =>
    let d := nth k ds [] in
    if hd 0 d =? 0 then dup_divs_loop k t ds ef p
    else
      match div_slot (S (length t)) t ds d (hash d mod length t) with
      | Ok h =>
        match nth h t None with
        | Some l => dup_divs_loop k (lset t h (Some k)) ds (lset ef l (Some k)) true
        | None => dup_divs_loop k (lset t h (Some k)) ds ef p
        end
      | Null => Null | UB => UB | Div => Div
      end
  end.
(** the loop isl_map_simplify.c:876-886; [n] is one more than the loop counter *)
Fixpoint elim_dups (n : nat) (ef : list (option nat)) (b : bmap) : bmap :=
  match n with
  | O => b
  | S l =>
    match nth l ef None with
    | None => elim_dups l ef b
    | Some k =>
      let eq := zupd (zupd (repeat 0 (1 + total b)) (1 + nvar b + k) (-1)) (1 + nvar b + l) 1 in
      elim_dups l ef (eliminate_div b eq None l true)
    end
  end.
(** the loop isl_map_simplify.c:838-840: the last known integer division; [n]
    is one more than the loop counter *)
Fixpoint last_known (n : nat) (ds : list row) : option nat :=
  match n with
  | O => None
  | S k => if hd 0 (nth k ds []) =? 0 then last_known k ds else Some k
  end.
(** remove_duplicate_divs, isl_map_simplify.c:816-894 *)
Definition remove_duplicate_divs (b : bmap) (p : bool) : res (bmap * bool) :=
  match order_divs b with
  | Ok b =>
    if Nat.leb (ndiv b) 1 then Ok (b, p)
    else
      match last_known (ndiv b) (b_div b) with
      | None | Some O => Ok (b, p)
      | Some k =>
        let size := round_up (4 * ndiv b / 3 - 1) in
        if Nat.eqb size 0 then Ok (b, p)
        else
          let t := repeat None size in
          let t := lset t (hash (nth k (b_div b) []) mod size) (Some k) in
          match dup_divs_loop k t (b_div b) (repeat None (ndiv b)) p with
          | Ok (ef, p) => Ok (elim_dups (ndiv b) ef b, p)
          | Null => Null | UB => UB | Div => Div
          end
      end
  | Null => Null | UB => UB | Div => Div
  end.

(** ** unit integer divisions *)

(** add_upper_div_constraint, isl_map.c:5507-5526 *)
Definition add_upper_div_constraint (b : bmap) (div : nat) : bmap :=
  let d := nth div (b_div b) [] in
  set_ineq b (b_ineq b ++ [zupd (tl d) (1 + nvar b + div) (- hd 0 d)]).
(** add_lower_div_constraint, isl_map.c:5532-5553 *)
Definition add_lower_div_constraint (b : bmap) (div : nat) : bmap :=
  let d := nth div (b_div b) [] in
  let r := zupd (seq_neg (tl d)) (1 + nvar b + div) (hd 0 d) in
  set_ineq b (b_ineq b ++ [zupd r 0 (hd 0 r + nth (1 + nvar b + div) r 0 - 1)]).
(** isl_basic_map_add_div_constraint, isl_map.c:5610-5617 *)
Definition add_div_constraint (b : bmap) (div : nat) (sign : Z) : bmap :=
  if sign <? 0 then add_upper_div_constraint b div else add_lower_div_constraint b div.
(** the change of the constraint in eliminate_unit_div,
    isl_map_simplify.c:1383-1398 *)
Definition unit_row (d : row) (c : nat) (r : row) : row :=
  let s := Z.sgn (nth c r 0) in
  let r := zupd r c 0 in
  let r := if s <? 0 then seq_combine false (-1) (tl d) (hd 0 d) r else seq_combine false 1 (tl d) (hd 0 d) r in
  if s <? 0 then zupd r 0 (hd 0 r + hd 0 d - 1) else r.
(** the loop of eliminate_unit_div, isl_map_simplify.c:1374-1404, from
    inequality [j] on; the flag is *progress *)
Fixpoint unit_loop (fuel : nat) (b : bmap) (div : nat) (j : nat) (p : bool) : res (bmap * bool) :=
  match fuel with
  | O => Div
  | S fuel' =>
    if Nat.leb (length (b_ineq b)) j then Ok (b, p)
    else
      let c := (1 + nvar b + div)%nat in
      let r := nth j (b_ineq b) [] in
      if (nth c r 0 =? 1) || (nth c r 0 =? -1) then
        let b' := set_ineq b (lset (b_ineq b) j (unit_row (nth div (b_div b) []) c r)) in
        unit_loop fuel' (add_div_constraint b' div (Z.sgn (nth c r 0))) div (S j) true
      else unit_loop fuel' b div (S j) p
  end.
(** eliminate_unit_div, isl_map_simplify.c:1360-1407: every constraint leads
    to at most one new constraint *)
Definition eliminate_unit_div (b : bmap) (div : nat) (p : bool) : res (bmap * bool) :=
  unit_loop (S (2 * length (b_ineq b))) b div 0 p.
(** eliminate_selected_unit_divs with is_any_div, isl_map_simplify.c:1455-1458;
    eliminate_unit_divs, isl_map_simplify.c:1465-1469; from integer division
    [i] on, [n] more of them *)
Fixpoint unit_divs_loop (n i : nat) (b : bmap) (p : bool) : res (bmap * bool) :=
  match n with
  | O => Ok (b, p)
  | S n' =>
    let m := hd 0 (nth i (b_div b) []) in
    if (m =? 0) || (m =? 1) then unit_divs_loop n' (S i) b p
    else match eliminate_unit_div b i p with
         | Ok (b, p) => unit_divs_loop n' (S i) b p
         | Null => Null | UB => UB | Div => Div
         end
  end.
Definition eliminate_unit_divs (b : bmap) (p : bool) : res (bmap * bool) := unit_divs_loop (ndiv b) 0 b p.

(** ** elimination based on inequalities *)

(** eliminate_divs_ineq, isl_map_simplify.c:457-491; [n] is one more than the
    loop counter, the flag is *progress *)
Fixpoint elim_divs_ineq_loop (n : nat) (b : bmap) (p : bool) : res (bmap * bool) :=
  match n with
  | O => Ok (b, p)
  | S d =>
    let c := (1 + nvar b + d)%nat in
    if existsb (fun r => negb (nth c r 0 =? 0)) (b_eq b) then elim_divs_ineq_loop d b p
    else if existsb (fun r => 1 <? Z.abs (nth c r 0)) (b_ineq b) then elim_divs_ineq_loop d b p
    else match eliminate_vars hash no_redundant tb b (nvar b + d) 1 with
         | Ok b => if b_empty b then Ok (b, true) else elim_divs_ineq_loop d (drop_div b d) true
         | Null => Null | UB => UB | Div => Div
         end
  end.
Definition eliminate_divs_ineq (b : bmap) (p : bool) : res (bmap * bool) := elim_divs_ineq_loop (ndiv b) b p.

(** ** integer divisions in equalities *)

(** the while loop of n_pure_div_eq, isl_map_simplify.c:905-906: the last
    non-zero coefficient of an integer division before [j] *)
Fixpoint last_div_before (r : row) (o j : nat) : option nat :=
  match j with
  | O => None
  | S j' => if nth (o + j') r 0 =? 0 then last_div_before r o j' else Some j'
  end.
(** n_pure_div_eq, isl_map_simplify.c:897-914; [j] is one more than the one in
    the code *)
Fixpoint pure_div_loop (o : nat) (l : list row) (i j : nat) : nat :=
  match l with
  | [] => i
  | r :: l' =>
    match last_div_before r o j with
    | None => i
    | Some j' => if existsb (fun k => negb (nth (o + k) r 0 =? 0)) (seq 0 j') then 0%nat else pure_div_loop o l' (S i) (S j')
    end
  end.
Definition n_pure_div_eq (b : bmap) : nat := pure_div_loop (1 + nvar b) (b_eq b) 0 (ndiv b).
(** the loop isl_map_simplify.c:1004-1008: the coefficients of the integer
    divisions in the first equalities *)
Fixpoint div_coefs (o : nat) (l : list row) (j : nat) : list Z :=
  match l with
  | [] => []
  | r :: l' =>
    match last_div_before r o j with
    | None => []
    | Some j' => nth (o + j') r 0 :: div_coefs o l' (S j')
    end
  end.
(** isl_mat_col_submul, isl_mat.c:1648-1655 *)
Definition mat_col_submul (nr nc : nat) (M : mat) (dst : nat) (f : Z) (src : nat) : mat :=
  MatModel.tab nr nc (fun r c => if Nat.eqb c dst then get M r c - f * get M r src else get M r c).
(** the loop isl_map_simplify.c:1026-1031, for a matrix with [1 + n] rows *)
Definition normalize_constants (n : nat) (T : mat) : mat :=
  fold_left (fun T i =>
    let v := fdiv_q (get T (1 + i) 0) (get T (1 + i) (1 + i)) in
    if v =? 0 then T else mat_col_submul (1 + n) (1 + n) T 0 v (1 + i)) (seq 0 n) T.
(** the loop isl_map_simplify.c:1038-1049: the integer divisions that appear in
    equalities are dropped; [n] is one more than the loop counter *)
Fixpoint drop_eq_divs (n : nat) (b : bmap) : bmap :=
  match n with
  | O => b
  | S j =>
    match find_eq_from (1 + nvar b + j) 0 (b_eq b) with
    | Some i => drop_eq_divs j (drop_equality (drop_div b j) i)
    | None => drop_eq_divs j b
    end
  end.
(** the body of the loop isl_map_simplify.c:1063-1088, without the allocation:
    the expression of the new integer division for row [i] of T, over the
    variables of a basic map with [n] of them, including the constant; [ps] is
    the array pos *)
Definition new_div_expr (n : nat) (n_row : nat) (T : mat) (C2 : option mat) (v_div : nat) (ps : list nat) (i : nat) : row :=
  let e0 := match C2 with
            | Some M => mrow M i ++ repeat 0 (n - (1 + v_div))
            | None => zupd (repeat 0 n) i 1
            end in
  fold_left (fun e j =>
    if get T i j =? 0 then e
    else match C2 with
         | Some M => if Nat.ltb (nth j ps 0%nat) n_row
                     then seq_submul (firstn (1 + v_div) e) (get T i j) (mrow M (nth j ps 0%nat)) ++ skipn (1 + v_div) e
                     else zupd e (nth j ps 0%nat) (- get T i j)
         | None => zupd e (nth j ps 0%nat) (- get T i j)
         end) (seq 0 i) e0.
(** the loop isl_map_simplify.c:1063-1088, over the rows [l] of T *)
Fixpoint add_new_divs (l : list nat) (n_row : nat) (T : mat) (C2 : option mat) (ps : list nat) (b : bmap) : bmap :=
  match l with
  | [] => b
  | i :: l' =>
    if get T i i =? 1 then add_new_divs l' n_row T C2 (ps ++ [i]) b
    else
      let p := (1 + total b)%nat in
      let e := new_div_expr (2 + total b) n_row T C2 (nvar b) ps i in
      let b := alloc_div b (get T i i :: e) in
      add_new_divs l' n_row T C2 (ps ++ [p]) (set_eq b (b_eq b ++ [zupd (seq_neg e) p (get T i i)]))
  end.
(** the end of normalize_divs, isl_map_simplify.c:1015-1095, for a matrix B
    with [1 + n] columns *)
Definition normalize_divs_with (b : bmap) (div_eq n : nat) (B : mat) (C2 : option mat) (p : bool) : res (bmap * bool) :=
  match parameter_compression div_eq n B (div_coefs (1 + nvar b) (firstn div_eq (b_eq b)) (ndiv b)) with
  | Ok None => Ok (set_nd (set_to_empty b) true, p)
  | Ok (Some T) =>
    let T := normalize_constants n T in
    let b := drop_eq_divs (ndiv b) b in
    Ok (set_nd (add_new_divs (seq 1 n) (1 + n) T C2 [0%nat] b) true, true)
  | Null => Null | UB => UB | Div => Div
  end.
(** normalize_divs, isl_map_simplify.c:964-1115; the flag is *progress *)
Definition normalize_divs (b : bmap) (p : bool) : res (bmap * bool) :=
  if Nat.eqb (ndiv b) 0 then Ok (b, p)
  else if Nat.eqb (length (b_eq b)) 0 then Ok (b, p)
  else if b_nd b then Ok (b, p)
  else
    let n := nvar b in
    let div_eq := n_pure_div_eq b in
    if Nat.eqb div_eq 0 then Ok (b, p)
    else
      let B := mat_sub (b_eq b) 0 div_eq 0 (1 + n) in
      if Nat.ltb div_eq (length (b_eq b)) then
        let m := (length (b_eq b) - div_eq)%nat in
        match variable_compression m n (mat_sub (b_eq b) div_eq m 0 (1 + n)) with
        | Ok None => Ok (set_nd (set_to_empty b) true, p)
        | Ok (Some (C, C2)) => normalize_divs_with b div_eq (n - m) (mat_product div_eq (1 + (n - m)) B C) (Some C2) p
        | Null => Null | UB => UB | Div => Div
        end
      else normalize_divs_with b div_eq n B None p.

(** ** isl_basic_map_simplify *)

(** the body of the loop of isl_basic_map_simplify, isl_map_simplify.c:1529-1543 *)
Definition simplify_step (b : bmap) : res (bmap * bool) :=
  let b := normalize_constraints b in
  let b := reduce_div_coefficients b in
  let b := normalize_div_expressions b in
  match remove_duplicate_divs b false with
  | Ok (b, p) =>
    match eliminate_unit_divs b p with
    | Ok (b, p) =>
      match eliminate_divs_eq b p with
      | Ok (b, p) =>
        match eliminate_divs_ineq b p with
        | Ok (b, p) =>
          match gauss b with
          | Ok (b, p') =>
            match normalize_divs b (p || p') with
            | Ok (b, p) =>
              match remove_duplicate_constraints hash b true with
              | Ok (b, p') => Ok (b, p || p')
              | Null => Null | UB => UB | Div => Div
              end
            | Null => Null | UB => UB | Div => Div
            end
          | Null => Null | UB => UB | Div => Div
          end
        | Null => Null | UB => UB | Div => Div
        end
      | Null => Null | UB => UB | Div => Div
      end
    | Null => Null | UB => UB | Div => Div
    end
  | Null => Null | UB => UB | Div => Div
  end.
(** isl_basic_map_simplify, isl_map_simplify.c:1516-1546 *)
Fixpoint simplify (fuel : nat) (b : bmap) : res bmap :=
  match fuel with
  | O => Div
  | S fuel' =>
    if b_empty b then Ok b
    else match simplify_step b with
         | Ok (b, p) => if p then simplify fuel' b else Ok b
         | Null => Null | UB => UB | Div => Div
         end
  end.
End Params.

(** ** isl_basic_map_finalize *)

(** isl_basic_map_is_div_constraint, isl_map_simplify.c:1555-1589 *)
Definition is_div_constraint (b : bmap) (r : row) (div : nat) : bool :=
  let pos := (1 + nvar b + div)%nat in
  let d := nth div (b_div b) [] in
  let rest := match seq_first_non_zero (skipn (pos + 1) r) with None => true | Some _ => false end in
  if nth pos r 0 =? hd 0 d then
    seq_eq (firstn pos r) (seq_neg (firstn pos (zupd (tl d) 0 (nth 1 d 0 - hd 0 d + 1)))) && rest
  else if Z.abs (nth pos r 0) =? Z.abs (hd 0 d) then
    seq_eq (firstn pos r) (firstn pos (tl d)) && rest
  else false.
(** div_is_redundant, isl_map_simplify.c:1599-1630 *)
Definition div_is_redundant (b : bmap) (div : nat) : bool :=
  let pos := (1 + nvar b + div)%nat in
  forallb (fun r => nth pos r 0 =? 0) (b_eq b)
  && forallb (fun r => (nth pos r 0 =? 0) || is_div_constraint b r div) (b_ineq b)
  && forallb (fun d => (hd 0 d =? 0) || (nth (1 + pos) d 0 =? 0)) (b_div b).
(** isl_basic_map_drop_constraints_involving with n = 1, isl_map.c:3029-3057;
    the loops run over the positions below [i] *)
Fixpoint drop_involving_eq (c : nat) (i : nat) (l : list row) : list row :=
  match i with
  | O => l
  | S i' => drop_involving_eq c i' (if nth c (nth i' l []) 0 =? 0 then l else ldrop l i')
  end.
Fixpoint drop_involving_ineq (c : nat) (i : nat) (l : list row) : list row :=
  match i with
  | O => l
  | S i' => drop_involving_ineq c i' (if nth c (nth i' l []) 0 =? 0 then l else drop_swap l i')
  end.
Definition drop_constraints_involving (b : bmap) (pos : nat) : bmap :=
  set_ineq (set_eq b (drop_involving_eq (1 + pos) (length (b_eq b)) (b_eq b)))
           (drop_involving_ineq (1 + pos) (length (b_ineq b)) (b_ineq b)).
(** remove_redundant_divs, isl_map_simplify.c:1638-1661; [n] is one more than
    the loop counter *)
Fixpoint remove_redundant_divs (n : nat) (b : bmap) : bmap :=
  match n with
  | O => b
  | S i =>
    remove_redundant_divs i
      (if div_is_redundant b i then drop_div (drop_constraints_involving b (nvar b + i)) i else b)
  end.
(** isl_basic_map_finalize, isl_map_simplify.c:1678-1683; the flag FINAL is
    not modelled *)
Definition finalize (b : bmap) : bmap := remove_redundant_divs (ndiv b) b.
