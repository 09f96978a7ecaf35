(** Model of isl_basic_map_drop_redundant_divs, isl_map_simplify.c, and the
    functions it uses.  The array pairs of the code is a list of numbers.  The
    flags and the memory management are treated as in BMapModel.v. *)
From Coq Require Import ZArith List Bool Arith.
From Verif Require Import SeqModel MatModel BMapModel BDupModel BElimModel LocalModel SimpModel.
Import ListNotations.
Open Scope Z_scope.

(** the position of local variable [div] in a constraint: isl_basic_map_offset
    of isl_dim_div plus [div], isl_map.c:177-188 *)
Definition dpos (b : bmap) (div : nat) : nat := 1 + nvar b + div.
(** the coefficient of local variable [div] in inequality [i] *)
Definition icoef (b : bmap) (div i : nat) : Z := nth (dpos b div) (nth i (b_ineq b) []) 0.
(** the position of the last element with some property, starting from [acc];
    [i] is the position of the first element of [l] *)
Fixpoint last_such (p : row -> bool) (l : list row) (i : nat) (acc : option nat) : option nat :=
  match l with
  | [] => acc
  | r :: l' => last_such p l' (S i) (if p r then Some i else acc)
  end.
(** the first result of a search *)
Fixpoint find_map {A B} (f : A -> option B) (l : list A) : option B :=
  match l with
  | [] => None
  | x :: l' => match f x with Some y => Some y | None => find_map f l' end
  end.

(** ** isl_basic_map_sort_divs *)

(** bmap_cmp_row, isl_local_space.c:750-754 *)
Definition bmap_cmp_row (b : bmap) (i j : nat) : Z :=
  cmp_row (nth i (b_div b) []) (nth j (b_div b) []) i j (ndiv b) (2 + total b).
(** the inner loop of isl_basic_map_sort_divs, isl_local_space.c:778-783, from
    integer division [jj - 1] down *)
Fixpoint sort_divs_inner (jj : nat) (b : bmap) : bmap :=
  match jj with
  | O => b
  | S j => if bmap_cmp_row b j (j + 1) <=? 0 then b else sort_divs_inner j (swap_div b j (j + 1))
  end.
(** isl_basic_map_sort_divs, isl_local_space.c:762-788 *)
Definition bmap_sort_divs (b : bmap) : res bmap :=
  let! b := order_divs b in
  Ok (fold_left (fun b i => sort_divs_inner i b) (seq 1 (ndiv b - 1)) b).

(** ** integer divisions with an explicit representation *)

(** isl_basic_map_div_is_known, isl_map.c:3237-3258; the recursion is at most
    as deep as the number of integer divisions *)
Fixpoint div_is_known (fuel : nat) (b : bmap) (div : nat) : res bool :=
  match fuel with
  | O => Div
  | S fuel' =>
    let d := nth div (b_div b) [] in
    if hd 0 d =? 0 then Ok false
    else
      (fix loop (is : list nat) : res bool :=
         match is with
         | [] => Ok true
         | i :: is' =>
           if nth (1 + dpos b i) d 0 =? 0 then loop is'
           else let! k := div_is_known fuel' b i in
                if k then loop is' else Ok false
         end) (rev (seq 0 (ndiv b)))
  end.
(** isl_basic_map_div_is_known, isl_map.c:3237-3258, with enough fuel *)
Definition known_div (b : bmap) (div : nat) : res bool := div_is_known (S (ndiv b)) b div.
(** isl_basic_map_first_unknown_div, isl_map.c:7997-8009; [n] more integer
    divisions from [i] on *)
Fixpoint first_unknown_loop (n i : nat) (b : bmap) : res nat :=
  match n with
  | O => Ok i
  | S n' => let! k := known_div b i in if k then first_unknown_loop n' (S i) b else Ok i
  end.
(** isl_basic_map_first_unknown_div, isl_map.c:7997-8009, also used by
    isl_basic_map_divs_known, isl_map.c:8024-8034 *)
Definition first_unknown_div (b : bmap) : res nat := first_unknown_loop (ndiv b) 0 b.

(** ** tests on pairs of constraints *)

(** is_opposite, isl_map_simplify.c:4109-4117, with is_opposite_part,
    isl_map_simplify.c:4100-4104 *)
Definition is_opposite (b : bmap) (i j : nat) : bool :=
  seq_is_neg (tl (nth i (b_ineq b) [])) (tl (nth j (b_ineq b) [])).
(** is_parallel_except, isl_map_simplify.c:4645-4655, with is_parallel_part,
    isl_map_simplify.c:4636-4640; [pos] is at least one *)
Definition is_parallel_except (b : bmap) (i j pos : nat) : bool :=
  let ri := nth i (b_ineq b) [] in
  let rj := nth j (b_ineq b) [] in
  seq_eq (firstn (pos - 1) (skipn 1 ri)) (firstn (pos - 1) (skipn 1 rj)) && seq_eq (skipn (pos + 1) ri) (skipn (pos + 1) rj).
(** is_opposite_except, isl_map_simplify.c:4660-4670 *)
Definition is_opposite_except (b : bmap) (i j pos : nat) : bool :=
  let ri := nth i (b_ineq b) [] in
  let rj := nth j (b_ineq b) [] in
  seq_is_neg (firstn (pos - 1) (skipn 1 ri)) (firstn (pos - 1) (skipn 1 rj)) && seq_is_neg (skipn (pos + 1) ri) (skipn (pos + 1) rj).

(** ** coalescing two local variables *)

(** the test of the loop isl_map_simplify.c:4205-4226 on inequality [r]:
    whether local variable [div] only appears together with [m] times local
    variable [i] *)
Definition coalesce_row (b : bmap) (div i : nat) (m : Z) (r : row) : bool :=
  let a := nth (dpos b div) r 0 in
  let c := nth (dpos b i) r 0 in
  if a =? 0 then (c =? 0) || (c =? 1) || (c =? -1)
  else negb (c =? 0) && (a * m =? c).
(** no integer division is defined in terms of local variable [i],
    isl_map_simplify.c:4174-4179 and 4197-4204 *)
Definition not_in_divs (b : bmap) (i : nat) : bool :=
  forallb (fun d => (hd 0 d =? 0) || (nth (1 + dpos b i) d 0 =? 0)) (b_div b).
(** div_find_coalesce, isl_map_simplify.c:4150-4235; no result corresponds to a
    position beyond the integer divisions.  When the sum of the constant terms
    is negative, the code marks a copy empty, which does not have any effect. *)
Definition div_find_coalesce (b : bmap) (pairs : list nat) (div l u : nat) : option nat :=
  let rl := nth l (b_ineq b) [] in
  let ru := nth u (b_ineq b) [] in
  if Nat.leb (ndiv b) 1 then None
  else if negb (forallb (fun x => x =? 0) (firstn div (skipn (1 + nvar b) rl))) then None
  else if negb (forallb (fun x => x =? 0) (skipn (dpos b div + 1) rl)) then None
  else if negb (is_opposite b l u) then None
  else if negb (not_in_divs b div) then None
  else
    let s := hd 0 rl + hd 0 ru in
    if s <? 0 then None
    else
      let m := s + 1 in
      find (fun i => negb (Nat.eqb i div) && negb (Nat.eqb (nth i pairs 0%nat) 0) && not_in_divs b i &&
                     forallb (fun j => Nat.eqb j l || Nat.eqb j u || coalesce_row b div i m (nth j (b_ineq b) []))
                             (seq 0 (length (b_ineq b))))
           (seq 0 (ndiv b)).
(** the body of the loop of coalesce_divs, isl_map_simplify.c:4550-4562 *)
Definition coalesced_row (b : bmap) (div1 div2 : nat) (m : Z) (rl ru r : row) : row :=
  let c := nth (dpos b div2) r 0 in
  if c =? 0 then r
  else
    let r := if nth (dpos b div1) r 0 =? 0
             then if 0 <? c then seq_combine true m r 1 rl else seq_combine true m r 1 ru
             else r in
    zupd (zupd r (dpos b div2) (nth (dpos b div1) r 0)) (dpos b div1) 0.
(** dropping two inequalities, the last one first, isl_map_simplify.c:4566-4572
    and 4759-4765 *)
Definition drop_two (b : bmap) (i j : nat) : bmap :=
  if Nat.ltb j i then drop_inequality (drop_inequality b i) j else drop_inequality (drop_inequality b j) i.
(** isl_basic_map_mark_div_unknown, isl_map.c:7958-7974 *)
Definition mark_div_unknown (b : bmap) (div : nat) : bmap :=
  set_div b (lset (b_div b) div (mark_unknown (nth div (b_div b) []))).
(** coalesce_divs, isl_map_simplify.c:4527-4576; the bounds [l] and [u] are not
    changed by the loop *)
Definition coalesce_divs (b : bmap) (div1 div2 l u : nat) : bmap :=
  let rl := nth l (b_ineq b) [] in
  let ru := nth u (b_ineq b) [] in
  let m := hd 0 rl + hd 0 ru + 1 in
  let li := map (fun i => let r := nth i (b_ineq b) [] in
                          if Nat.eqb i l || Nat.eqb i u then r else coalesced_row b div1 div2 m rl ru r)
                (seq 0 (length (b_ineq b))) in
  drop_div (mark_div_unknown (drop_two (set_ineq b li) l u) div2) div1.

(** ** constant lower bounds *)

(** the loop of lower_bound_is_cst, isl_map_simplify.c:4854-4877, from
    inequality [i] on, [n] more of them *)
Fixpoint cst_loop (n : nat) (b : bmap) (div ineq i : nat) (lower upper : option nat) : option nat * option nat :=
  match n with
  | O => (lower, upper)
  | S n' =>
    match lower, upper with
    | Some _, Some _ => (lower, upper)
    | _, _ =>
      if Nat.eqb i ineq then cst_loop n' b div ineq (S i) lower upper
      else if negb (icoef b div i =? 0) then cst_loop n' b div ineq (S i) lower upper
      else if (match lower with None => true | Some _ => false end) && is_parallel_except b ineq i (dpos b div)
      then cst_loop n' b div ineq (S i) (Some i) upper
      else if (match upper with None => true | Some _ => false end) && is_opposite_except b ineq i (dpos b div)
      then cst_loop n' b div ineq (S i) lower (Some i)
      else cst_loop n' b div ineq (S i) lower upper
    end
  end.
(** lower_bound_from_parallel, isl_map_simplify.c:4786-4792 *)
Definition lower_bound_from_parallel (b : bmap) (ineq lower pos : nat) : Z :=
  cdiv_q (- hd 0 (nth ineq (b_ineq b) []) + hd 0 (nth lower (b_ineq b) [])) (nth pos (nth ineq (b_ineq b) []) 0).
(** lower_bound_from_opposite, isl_map_simplify.c:4810-4816 *)
Definition lower_bound_from_opposite (b : bmap) (ineq upper pos : nat) : Z :=
  cdiv_q (- hd 0 (nth ineq (b_ineq b) []) - hd 0 (nth upper (b_ineq b) [])) (nth pos (nth ineq (b_ineq b) []) 0).
(** lower_bound_is_cst, isl_map_simplify.c:4845-4894; no result corresponds to
    bmap->n_ineq *)
Definition lower_bound_is_cst (b : bmap) (div ineq : nat) : option nat :=
  match cst_loop (length (b_ineq b)) b div ineq 0 None None with
  | (Some lower, Some upper) =>
    if lower_bound_from_parallel b ineq lower (dpos b div) =? lower_bound_from_opposite b ineq upper (dpos b div)
    then Some lower else None
  | _ => None
  end.

(** any_div_involves_div, isl_map_simplify.c:4938-4961: only later integer
    divisions are considered *)
Definition any_div_involves_div (b : bmap) (div : nat) : bool :=
  existsb (fun d => negb (hd 0 d =? 0) && negb (nth (1 + dpos b div) d 0 =? 0)) (skipn (div + 1) (b_div b)).
(** single_unknown, isl_map_simplify.c:4690-4720, with its loop
    isl_map_simplify.c:4707-4717 *)
Fixpoint others_known (b : bmap) (ineq div : nat) (is : list nat) : res bool :=
  match is with
  | [] => Ok true
  | i :: is' =>
    if Nat.eqb i div then others_known b ineq div is'
    else if icoef b i ineq =? 0 then others_known b ineq div is'
    else let! k := known_div b i in if k then others_known b ineq div is' else Ok false
  end.
(** single_unknown, isl_map_simplify.c:4690-4720 *)
Definition single_unknown (b : bmap) (ineq div : nat) : res bool :=
  let! k := known_div b div in
  if k then Ok false
  else if Nat.eqb (ndiv b) 1 then Ok true
  else others_known b ineq div (seq 0 (ndiv b)).

(** ** the loop of isl_basic_map_drop_redundant_divs_ineq *)

(** what the loop decides to do *)
Inductive choice :=
| Drop_unbounded (div : nat)                (* isl_map_simplify.c:5060-5066 *)
| Set_eq (ineq : nat)                       (* isl_map_simplify.c:5087-5089 *)
| Fix_lower (div ineq lower : nat)          (* isl_map_simplify.c:5093-5095 *)
| Drop_pair (div ineq1 ineq2 : nat)         (* isl_map_simplify.c:5109-5111 *)
| Set_div (div ineq : nat)                  (* isl_map_simplify.c:5118-5121 *)
| Go_on (pairs : list nat) (n : nat).       (* isl_map_simplify.c:5126-5130 *)
(** isl_basic_map_drop_redundant_divs_ineq, isl_map_simplify.c:5029-5124: from
    integer division [i] on, [k] more of them *)
Fixpoint ineq_loop (k : nat) (b : bmap) (i : nat) (pairs : list nat) (n : nat) : res choice :=
  match k with
  | O => Ok (Go_on pairs n)
  | S k' =>
    if any_div_involves_div b i then ineq_loop k' b (S i) pairs n
    else if existsb (fun r => negb (nth (dpos b i) r 0 =? 0)) (b_eq b) then ineq_loop k' b (S i) pairs n
    else
      let is_pos := fun r => 0 <? nth (dpos b i) r 0 in
      let is_neg := fun r => nth (dpos b i) r 0 <? 0 in
      let pos := length (filter is_pos (b_ineq b)) in
      let neg := length (filter is_neg (b_ineq b)) in
      let ps := lset pairs i (pos * neg)%nat in
      match last_such is_pos (b_ineq b) 0 None, last_such is_neg (b_ineq b) 0 None with
      | Some lp, Some ln =>
        let opp := Nat.eqb (pos * neg) 1 && is_opposite b lp ln in
        if negb opp then
          if negb (Nat.eqb pos 1) then ineq_loop k' b (S i) ps (S n)
          else
            let! single := single_unknown b lp i in
            if negb single then ineq_loop k' b (S i) ps (S n)
            else if icoef b i lp =? 1 then Ok (Set_eq lp)
            else match lower_bound_is_cst b i lp with
                 | Some lower => Ok (Fix_lower i lp lower)
                 | None => ineq_loop k' b (S i) ps (S n)
                 end
        else if icoef b i lp <=? hd 0 (nth lp (b_ineq b) []) + hd 0 (nth ln (b_ineq b) []) + 1
        then Ok (Drop_pair i lp ln)
        else if (hd 0 (nth i (b_div b) []) =? 0) && ok_to_set_div_from_bound b i lp then Ok (Set_div i lp)
        else ineq_loop k' b (S i) (lset pairs i 0%nat) n
      | _, _ => Ok (Drop_unbounded i)
      end
  end.

(** isl_basic_map_drop_redundant_divs_ineq, isl_map_simplify.c:5061-5064: the
    loop over the inequalities below position [i] *)
Definition drop_unbounded (b : bmap) (div : nat) : bmap :=
  drop_div (set_ineq b (drop_involving_ineq (dpos b div) (length (b_ineq b)) (b_ineq b))) div.

Section Params.
(** the arguments of isl_basic_map_simplify in SimpModel.v *)
Variable hash : row -> nat.
Variable no_redundant : bmap -> bool.
Variable tab : bmap -> bool * list kind.
Variable sfuel : nat.
(** the tableau of a basic map, isl_tab_from_basic_map, isl_tab.c:2384-2422:
    whether it is empty and the minimum of an affine expression, rounded up, if
    there is one: isl_tab_min, isl_tab.c:3348-3415 *)
Variable tab_empty : bmap -> bool.
Variable tab_min : bmap -> row -> option Z.

(** test_ineq_is_satisfied, isl_map_simplify.c:4270-4283 *)
Definition test_ineq_is_satisfied (b : bmap) (v : row) : bool :=
  if tab_empty b then false else match tab_min b v with Some g => 0 <=? g | None => false end.
(** int_between_bounds, isl_map_simplify.c:4337-4378; the second result tells
    whether the tableau has been used *)
Definition int_between_bounds (b : bmap) (i l u : nat) : bool * bool :=
  let rl := nth l (b_ineq b) [] in
  let ru := nth u (b_ineq b) [] in
  let g := Z.gcd (icoef b i l) (icoef b i u) in
  let fl := divexact (icoef b i l) g in
  let fu := - divexact (icoef b i u) g in
  let v := seq_combine false fl ru fu rl in
  let t := hd 0 v - (g * fl * fu - fl - fu + 1) in
  let g := seq_gcd (tl v) in
  if g =? 0 then (0 <=? t, false)
  else if g =? 1 then (test_ineq_is_satisfied b (t :: tl v), true)
  else
    let t := fdiv_q t g in
    if t =? fdiv_q (hd 0 v) g then (true, false)
    else (test_ineq_is_satisfied b (t :: seq_scale_down (tl v) g), true).
(** the inner loop of drop_more_redundant_divs, isl_map_simplify.c:4433-4446,
    over the inequalities [us]; the results are whether it runs to the end and
    whether the tableau has been used *)
Fixpoint upper_loop (b : bmap) (i l : nat) (us : list nat) (used : bool) : bool * bool :=
  match us with
  | [] => (true, used)
  | u :: us' =>
    if negb (icoef b i u <? 0) then upper_loop b i l us' used
    else if icoef b i u =? -1 then upper_loop b i l us' used
    else
      let '(has, t) := int_between_bounds b i l u in
      let used := used || t in
      if used && tab_empty b then (false, used)
      else if has then upper_loop b i l us' used else (false, used)
  end.
(** the outer loop, isl_map_simplify.c:4428-4449 *)
Fixpoint lower_loop (b : bmap) (i : nat) (ls : list nat) (used : bool) : bool * bool :=
  match ls with
  | [] => (true, used)
  | l :: ls' =>
    if negb (0 <? icoef b i l) then lower_loop b i ls' used
    else if icoef b i l =? 1 then lower_loop b i ls' used
    else
      let '(ok, used) := upper_loop b i l (seq 0 (length (b_ineq b))) used in
      if ok then lower_loop b i ls' used else (false, used)
  end.
(** the loop isl_map_simplify.c:4419-4425: the smallest positive element *)
Definition best_pair (pairs : list nat) : option nat :=
  fold_left (fun best i =>
    if Nat.eqb (nth i pairs 0%nat) 0 then best
    else match best with
         | Some k => if Nat.leb (nth k pairs 0%nat) (nth i pairs 0%nat) then best else Some i
         | None => Some i
         end) (seq 0 (length pairs)) None.
(** the while loop of drop_more_redundant_divs, isl_map_simplify.c:4414-4460 *)
Inductive removal := Remove (div : nat) | Mark_empty | Nothing.
Fixpoint more_loop (n : nat) (b : bmap) (pairs : list nat) (used : bool) : res removal :=
  match n with
  | O => Ok Nothing
  | S n' =>
    match best_pair pairs with
    | None => UB
    | Some i =>
      let '(ok, used) := lower_loop b i (seq 0 (length (b_ineq b))) used in
      if used && tab_empty b then Ok Mark_empty
      else if ok then Ok (Remove i)
      else more_loop n' b (lset pairs i 0%nat) used
    end
  end.
(** isl_basic_map_remove_dims with isl_dim_div and n = 1, isl_map.c:2622-2638,
    with isl_basic_map_drop, isl_map.c:2437-2453 *)
Definition remove_div (b : bmap) (div : nat) : res bmap :=
  let! b := eliminate_vars hash no_redundant tab b (nvar b + div) 1 in
  if b_empty b then Ok b
  else let! b := simplify hash no_redundant tab sfuel (drop_div b div) in Ok (finalize b).
(** the search of coalesce_or_drop_more_redundant_divs,
    isl_map_simplify.c:4598-4619 *)
Definition find_coalesce (b : bmap) (pairs : list nat) : option (nat * nat * nat * nat) :=
  find_map (fun i =>
    if Nat.eqb (nth i pairs 0%nat) 0 then None
    else find_map (fun l =>
      if negb (icoef b i l =? 1) then None
      else find_map (fun u =>
        if negb (icoef b i u =? -1) then None
        else match div_find_coalesce b pairs i l u with Some c => Some (i, c, l, u) | None => None end)
        (seq 0 (length (b_ineq b)))) (seq 0 (length (b_ineq b)))) (seq 0 (ndiv b)).
(** isl_basic_map_fix with isl_dim_div, isl_map.c:6500-6507, and
    isl_basic_map_fix_pos, isl_map.c:6466-6489 *)
Definition fix_div (b : bmap) (div : nat) (value : Z) : res bmap :=
  let r := zupd (zupd (repeat 0 (1 + total b)) (dpos b div) (-1)) 0 value in
  let! b := simplify hash no_redundant tab sfuel (set_eq b (b_eq b ++ [r])) in Ok (finalize b).

(** preimage, isl_map_simplify.c:5140-5163, on the elements of a row from
    position [o] on *)
Definition preimage (n : nat) (T : mat) (o : nat) (r : row) : row :=
  match seq_first_non_zero (skipn o r) with
  | None => r
  | Some _ => firstn o r ++ vec_mat_product n (skipn o r) T
  end.
(** isl_basic_map_preimage_vars, isl_map_simplify.c:5168-5206, for a square
    matrix of size [n] and the last [n] variables *)
Definition preimage_vars (b : bmap) (pos n : nat) (T : mat) : bmap :=
  set_div (set_ineq (set_eq b (map (preimage n T (1 + pos)) (b_eq b))) (map (preimage n T (1 + pos)) (b_ineq b)))
          (map (fun d => if hd 0 d =? 0 then d else preimage n T (2 + pos) d) (b_div b)).
(** the loop isl_map_simplify.c:5279-5289: an equality that involves two or
    more of the local variables from [first] on, and the first of those *)
Definition find_unknown_eq (b : bmap) (first : nat) : option (row * nat) :=
  find_map (fun r =>
    match seq_first_non_zero (skipn (dpos b first) r) with
    | None => None
    | Some l =>
      match seq_first_non_zero (skipn (dpos b (first + l) + 1) r) with
      | None => None
      | Some _ => Some (r, (first + l)%nat)
      end
    end) (b_eq b).
(** the change of variables, isl_map_simplify.c:5293-5304; only the first row of
    T is used before it is completed *)
Definition change_unknown (b : bmap) (r : row) (l : nat) : res bmap :=
  let n := (ndiv b - l)%nat in
  let T := seq_normalize (skipn (dpos b l) r) :: repeat (repeat 0 n) (n - 1) in
  let! T := unimodular_complete n T 1 in
  let! T := right_inverse n n T in
  let b := fold_left mark_div_unknown (seq l n) b in
  Ok (preimage_vars b (nvar b + l) n T).

(** isl_basic_map_drop_redundant_divs, isl_map_simplify.c:5249-5308, and
    isl_basic_map_drop_redundant_divs_ineq, isl_map_simplify.c:5005-5135, with
    drop_redundant_divs_again, isl_map_simplify.c:4677-4684,
    set_eq_and_try_again, isl_map_simplify.c:4741-4747, drop_div_and_try_again,
    isl_map_simplify.c:4755-4768, fix_cst_lower, isl_map_simplify.c:4915-4931,
    coalesce_or_drop_more_redundant_divs, isl_map_simplify.c:4586-4631, and
    drop_more_redundant_divs, isl_map_simplify.c:4391-4476 *)
Fixpoint drop_redundant_divs (fuel : nat) (b : bmap) : res bmap :=
  match fuel with
  | O => Div
  | S fuel' =>
    let simp := simplify hash no_redundant tab sfuel in
    let ineq := fun b =>
      if Nat.eqb (ndiv b) 0 then Ok b
      else
        let! c := ineq_loop (ndiv b) b 0 (repeat 0%nat (ndiv b)) 0 in
        match c with
        | Drop_unbounded i => drop_redundant_divs fuel' (drop_unbounded b i)
        | Set_eq j => let! b := simp (inequality_to_equality b j) in drop_redundant_divs fuel' b
        | Fix_lower i j lower => let! b := fix_div b i (lower_bound_from_parallel b j lower (dpos b i)) in drop_redundant_divs fuel' b
        | Drop_pair i j1 j2 => drop_redundant_divs fuel' (drop_div (drop_two b j1 j2) i)
        | Set_div i j => let! b := simp (set_div_from_lower_bound b i j) in drop_redundant_divs fuel' b
        | Go_on pairs O => Ok b
        | Go_on pairs n =>
          match find_coalesce b pairs with
          | Some (i, c, l, u) => drop_redundant_divs fuel' (coalesce_divs b i c l u)
          | None =>
            if b_empty b then Ok b
            else
              let! m := more_loop n b pairs false in
              match m with
              | Remove i => let! b := remove_div b i in drop_redundant_divs fuel' b
              | Mark_empty => Ok (set_to_empty b)
              | Nothing => Ok b
              end
          end
        end in
    let! first := first_unknown_div b in
    if Nat.eqb first (ndiv b) then ineq b
    else if Nat.eqb (length (b_eq b)) 0 then ineq b
    else
      let! b := bmap_sort_divs b in
      let! first := first_unknown_div b in
      match find_unknown_eq b first with
      | None => ineq b
      | Some (r, l) =>
        let! b := change_unknown b r l in
        let! b := simp b in
        drop_redundant_divs fuel' b
      end
  end.
End Params.
