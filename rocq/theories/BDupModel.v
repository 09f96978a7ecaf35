(** Model of isl_basic_map_remove_duplicate_constraints and
    isl_basic_map_detect_inequality_pairs, isl_map_simplify.c.

    The table of addresses of inequalities is a list of positions.  The hash
    function is a parameter: isl_seq_get_hash_bits returns a value below the
    size of the table, which is all that is used. *)
From Coq Require Import ZArith List Bool Arith.
From Verif Require Import SeqModel MatModel BMapModel.
Import ListNotations.
Open Scope Z_scope.

Section Hash.
(** isl_seq_get_hash, isl_seq.c:338-343 *)
Variable hash : row -> nat.

(** round_up, isl_map_simplify.c:675-684: twice the most significant bit *)
Definition round_up (v : nat) : nat := if Nat.eqb v 0 then 0 else 2 ^ (Nat.log2 v + 1).
(** the size computed by create_constraint_index, isl_map_simplify.c:703-724 *)
Definition index_size (n : nat) : nat := round_up (4 * (n + 1) / 3 - 1).

(** hash_index_ineq, isl_map_simplify.c:739-748; [h] is the loop counter,
    [self] the position of the inequality in the basic map *)
Fixpoint hash_index_loop (fuel : nat) (t : list (option nat)) (l : list row) (self : nat) (c : row) (h : nat) : res nat :=
  match fuel with
  | O => Div
  | S fuel' =>
    match nth h t None with
    | None => Ok h
    | Some j =>
      if negb (Nat.eqb self j) && seq_eq c (tl (nth j l [])) then Ok h
      else hash_index_loop fuel' t l self c ((h + 1) mod length t)
    end
  end.
(** hash_index, isl_map_simplify.c:757-761, for an inequality with
    coefficients [c] stored at position [self] *)
Definition hash_index (t : list (option nat)) (l : list row) (self : nat) (c : row) : res nat :=
  hash_index_loop (S (length t)) t l self c (hash c mod length t).

(** the first loop of isl_basic_map_remove_duplicate_constraints,
    isl_map_simplify.c:1255-1268 *)
Fixpoint dup_loop (fuel : nat) (t : list (option nat)) (l : list row) (k : nat) (p : bool) : res (list (option nat) * list row * bool) :=
  match fuel with
  | O => Div
  | S fuel' =>
    if Nat.leb (length l) k then Ok (t, l, p)
    else
      match hash_index t l k (tl (nth k l [])) with
      | Ok h =>
        match nth h t None with
        | None => dup_loop fuel' (lset t h (Some k)) l (S k) p
        | Some j =>
          let l := if hd 0 (nth k l []) <? hd 0 (nth j l []) then lswap l k j else l in
          dup_loop fuel' t (drop_swap l k) k true
        end
      | Null => Null | UB => UB | Div => Div
      end
  end.

(** set_div_from_lower_bound, isl_map_simplify.c:1117-1129 *)
Definition set_div_from_lower_bound (b : bmap) (div ineq : nat) : bmap :=
  let r := nth ineq (b_ineq b) [] in
  let c := nth (1 + nvar b + div) r 0 in
  let e := seq_neg r in
  set_div b (lset (b_div b) div (c :: zupd (zupd e 0 (hd 0 e + c - 1)) (1 + nvar b + div) 0)).
(** ok_to_set_div_from_bound, isl_map_simplify.c:1137-1164 *)
Definition ok_to_set_div_from_bound (b : bmap) (div ineq : nat) : bool :=
  forallb (fun j => Nat.eqb div j || (nth (1 + nvar b + j) (nth ineq (b_ineq b) []) 0 =? 0)
                    || negb (hd 0 (nth j (b_div b) []) =? 0)) (seq 0 (ndiv b)) &&
  forallb (fun j => Nat.eqb div j || (hd 0 (nth j (b_div b) []) =? 0)
                    || (nth (2 + nvar b + div) (nth j (b_div b) []) 0 =? 0)) (seq 0 (ndiv b)).
(** better_div_constraint, isl_map_simplify.c:1174-1193 *)
Definition opt_lt (a b : option nat) : bool :=
  match a, b with
  | None, Some _ => true
  | Some x, Some y => Nat.ltb x y
  | _, None => false
  end.
Definition better_div_constraint (b : bmap) (div ineq : nat) : bool :=
  let d := nth div (b_div b) [] in
  let r := nth ineq (b_ineq b) [] in
  let o := (1 + nvar b)%nat in
  if hd 0 d =? 0 then true
  else match seq_last_non_zero (skipn (o + div + 1) r) with
       | Some _ => false
       | None => opt_lt (seq_last_non_zero (firstn (o + div) r)) (seq_last_non_zero (tl d))
       end.
(** check_for_div_constraints, isl_map_simplify.c:1207-1237; the loop from
    [i] on, [n] more integer divisions; the flag is *progress *)
Fixpoint check_div_loop (n : nat) (b : bmap) (k l : nat) (sum : Z) (i : nat) : bmap * bool :=
  match n with
  | O => (b, false)
  | S n' =>
    let c := nth (1 + nvar b + i) (nth k (b_ineq b) []) 0 in
    if c =? 0 then check_div_loop n' b k l sum (S i)
    else if Z.abs c <=? Z.abs sum then check_div_loop n' b k l sum (S i)
    else if better_div_constraint b i k && ok_to_set_div_from_bound b i k then
      (set_div_from_lower_bound b i (if 0 <? c then k else l), true)
    else (b, false)
  end.
Definition check_for_div_constraints (b : bmap) (k l : nat) (sum : Z) : bmap * bool := check_div_loop (ndiv b) b k l sum 0.

(** the second loop, isl_map_simplify.c:1270-1297; the coefficients of
    inequality [k] are negated during the call to hash_index, which only
    affects the entry for [k] itself, which hash_index ignores *)
Fixpoint opp_loop (fuel : nat) (detect : bool) (t : list (option nat)) (b : bmap) (k : nat) (p : bool) : res (bmap * bool) :=
  match fuel with
  | O => Div
  | S fuel' =>
    if Nat.leb (length (b_ineq b)) (k + 1) then Ok (b, p)
    else
      match hash_index t (b_ineq b) k (seq_neg (tl (nth k (b_ineq b) []))) with
      | Ok h =>
        match nth h t None with
        | None => opp_loop fuel' detect t b (S k) p
        | Some l =>
          let sum := hd 0 (nth k (b_ineq b) []) + hd 0 (nth l (b_ineq b) []) in
          if 0 <? sum then
            if detect then let '(b, p') := check_for_div_constraints b k l sum in opp_loop fuel' detect t b (S k) (p || p')
            else opp_loop fuel' detect t b (S k) p
          else if sum =? 0 then Ok (inequality_to_equality (drop_inequality b l) k, true)
          else Ok (set_to_empty b, p)
        end
      | Null => Null | UB => UB | Div => Div
      end
  end.
(** isl_basic_map_remove_duplicate_constraints, isl_map_simplify.c:1239-1302 *)
Definition remove_duplicate_constraints (b : bmap) (detect : bool) : res (bmap * bool) :=
  let n := length (b_ineq b) in
  if Nat.leb n 1 then Ok (b, false)
  else
    let t := repeat None (index_size n) in
    let t := lset t (hash (tl (nth 0 (b_ineq b) [])) mod length t) (Some O) in
    match dup_loop (S n) t (b_ineq b) 1 false with
    | Ok (t, l, p) => opp_loop (S n) detect t (set_ineq b l) 0 p
    | Null => Null | UB => UB | Div => Div
    end.
(** isl_basic_map_detect_inequality_pairs, isl_map_simplify.c:1309-1323; the
    flag is *progress *)
Fixpoint detect_pairs_loop (fuel : nat) (b : bmap) (p : bool) : res (bmap * bool) :=
  match fuel with
  | O => Div
  | S fuel' =>
    match remove_duplicate_constraints b false with
    | Ok (b, d) => if d then detect_pairs_loop fuel' b true else Ok (b, p)
    | Null => Null | UB => UB | Div => Div
    end
  end.
Definition detect_inequality_pairs (b : bmap) : res (bmap * bool) := detect_pairs_loop (S (length (b_ineq b))) b false.
End Hash.
