(** Model of isl_ilp.c, isl_basic_set_solve_ilp and the functions that it calls.

    The conventions are those of BMapModel.v and LpModel.v.  The linear programs
    are solved by the model of isl_basic_set_solve_lp, LpModel.v.  Two functions
    are parameters: [sample] stands for isl_basic_set_sample_vec, isl_sample.c,
    with [] for the vector of size 0 that it returns for a set without integer
    points, and [remove_eq] for isl_basic_set_remove_equalities,
    isl_equalities.c:708-723, with the transformation T.
    The arguments opt and sol_p are not NULL. *)
From Coq Require Import ZArith List Bool Arith.
From Verif Require Import SeqModel MatModel BMapModel TabModel LpModel.
Import ListNotations.
Open Scope Z_scope.

Section Ilp.
Variable sample : bmap -> res (list Z).
Variable remove_eq : bmap -> res (bmap * list (list Z)).

(** the loop over the coefficients in unit_box_base_points, isl_ilp.c:60-65 *)
Definition unit_row (r : list Z) : list Z :=
  zupd r 0 (fold_left (fun s c => if 0 <=? c then s else s + c) (tl r) (hd 0 r)).
(** unit_box_base_points, isl_ilp.c:34-74 *)
Definition unit_box (b : bmap) : bmap :=
  let u := mkb (b_param b) (b_in b) (b_out b) [] [] [] false false false in
  match b_eq b with
  | _ :: _ => set_to_empty u
  | [] => set_ineq u (map unit_row (b_ineq b))
  end.
(** isl_vec_ceil, isl_vec.c:443-454 *)
Definition vec_ceil (v : list Z) : list Z := 1 :: seq_cdiv_q (tl v) (hd 0 v).
(** initial_solution, isl_ilp.c:85-104; any result other than isl_lp_ok, also an
    error, leads to the call of isl_basic_set_sample_vec *)
Definition initial_solution (fuel : nat) (b : bmap) (f : list Z) : res (list Z) :=
  match solve_lp fuel (unit_box b) false f 1 false with
  | Ok (Lp_ok _ _, sol) => Ok (vec_ceil sol)
  | Ok _ | Null => sample b
  | UB => UB
  | Div => Div
  end.
(** add_bounds, isl_ilp.c:108-135 *)
Definition add_bounds (b : bmap) (f : list Z) (l u : Z) : bmap :=
  set_ineq b (b_ineq b ++ [zupd f 0 (hd 0 f - l); zupd (seq_neg f) 0 (- hd 0 f + u)]).
(** solve_ilp_search, isl_ilp.c:153-197; [opt] is *opt *)
Fixpoint ilp_search (fuel : nat) (b : bmap) (f : list Z) (opt : Z) (sol : list Z) (l u : Z) (divide : bool) : res (Z * list Z) :=
  match fuel with
  | O => Div
  | S fuel =>
    if l <=? u then
      let tmp := if negb divide then u else fdiv_q (u - l) 2 + l in
      do s <- sample (add_bounds b f l tmp) ;;
      match s with
      | _ :: _ => let opt := seq_inner_product f s in ilp_search fuel b f opt s l (opt - 1) true
      | [] => if negb divide then Ok (opt, sol)
              else ilp_search fuel b f opt sol (tmp + 1) u false
      end
    else Ok (opt, sol)
  end.
(** solve_ilp, isl_ilp.c:212-265 *)
Definition solve_ilp (fuel : nat) (b : bmap) (f : list Z) : res (lp * list Z) :=
  do (o, sol) <- solve_lp fuel b false f 1 false ;;
  match o with
  | Lp_empty => Ok (Lp_empty, [])
  | Lp_ok opt _ =>
    if hd 0 sol =? 1 then Ok (o, sol)
    else
      do s <- initial_solution fuel b f ;;
      match s with
      | [] => Ok (Lp_empty, [])
      | _ :: _ =>
        let v := seq_inner_product f s in
        do (r, s) <- ilp_search fuel b f v s opt (v - 1) true ;;
        Ok (Lp_ok r 1, s)
      end
  | Lp_unbounded =>
    do s <- initial_solution fuel b f ;;
    match s with
    | [] => Ok (Lp_empty, [])
    | _ :: _ => Ok (Lp_unbounded, [])
    end
  end.
(** isl_basic_set_solve_ilp, isl_ilp.c:311-344, with solve_ilp_with_eq,
    isl_ilp.c:268-300; the fuel bounds the depth of the recursion *)
Fixpoint bset_solve_ilp (fuel : nat) (b : bmap) (max : bool) (f : list Z) : res (lp * list Z) :=
  match fuel with
  | O => Div
  | S fuel' =>
    if negb (Nat.eqb (b_param b) 0) then Null
    else if b_empty b then Ok (Lp_empty, [])
    else match b_eq b with
    | _ :: _ =>
      do (c, T) <- remove_eq b ;;
      do (o, s) <- bset_solve_ilp fuel' c max (vec_mat_product (1 + total c) f T) ;;
      match o with
      | Lp_ok _ _ => Ok (o, mat_vec_product (1 + total b) T s)
      | _ => Ok (o, s)
      end
    | [] =>
      let f := if max then seq_neg f else f in
      do (o, s) <- solve_ilp fuel b f ;;
      Ok (match o with Lp_ok v d => Lp_ok (if max then - v else v) d | _ => o end, s)
    end
  end.
End Ilp.
