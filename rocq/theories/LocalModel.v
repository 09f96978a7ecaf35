(** Model of lists of integer divisions, isl_local.c, isl_local_space.c and
    isl_mat.c.

    A list of integer divisions over [d] variables is a matrix with one row for
    each integer division: the denominator, the constant term, the coefficients
    of the variables and those of the integer divisions.  The denominator is
    zero if the integer division does not have an explicit representation.
    isl_int is Z.  Memory allocation succeeds. *)
From Coq Require Import ZArith List Bool Arith.
From Verif Require Import SeqModel MatModel.
Import ListNotations.
Open Scope Z_scope.

Definition bind {A B} (r : res A) (f : A -> res B) : res B :=
  match r with Ok a => f a | Null => Null | UB => UB | Div => Div end.
Notation "'let!' x := e 'in' k" := (bind e (fun x => k)) (at level 200, x pattern, e at level 200, k at level 200).

(** isl_local_divs_known, isl_local.c:161-177, with isl_local_div_is_marked_unknown, isl_local.c:110-117 *)
Definition divs_known (M : mat) : bool := forallb (fun r => negb (nth 0 r 0 =? 0)) M.
(** the loop of isl_local_extend_point_vec, isl_local.c:363-368; [M] contains the remaining rows *)
Fixpoint extend_loop (M : mat) (v : list Z) : list Z :=
  match M with
  | [] => v
  | r :: M' => extend_loop M' (v ++ [fdiv_q (seq_inner_product (firstn (length v) (skipn 1 r)) v) (nth 0 r 0)])
  end.
(** isl_local_extend_point_vec, isl_local.c:331-372; [d] is the number of variables *)
Definition extend_point (d : nat) (M : mat) (v : list Z) : res (list Z) :=
  if negb (divs_known M) then Null
  else if negb (Nat.eqb (length v) (1 + d)) then Null
  else match M with
       | [] => Ok v
       | _ => if negb (nth 0 v 0 =? 1) then Null else Ok (extend_loop M v)
       end.

(** expand_row, isl_local_space.c:695-706; the row of the destination has [w]
    columns, [c] is the number of columns of [src] before those of the integer
    divisions *)
Definition expand_row (w c : nat) (src : mat) (s : nat) (exp : list nat) : list Z :=
  fold_left (fun r i => zupd r (c + nth i exp 0%nat) (nth (c + i) (nth s src []) 0))
    (seq 0 s) (firstn c (nth s src []) ++ repeat 0 (w - c)).
(** -1 if there are no non-zero elements *)
Definition last_nz (r : list Z) : Z := match seq_last_non_zero r with Some i => Z.of_nat i | None => -1 end.
(** cmp_row, isl_local_space.c:714-739 *)
Definition cmp_row (ri rj : list Z) (i j n_row n_col : nat) : Z :=
  let ui := nth 0 ri 0 =? 0 in
  let uj := nth 0 rj 0 =? 0 in
  if ui && uj then Z.of_nat i - Z.of_nat j
  else
    let li := if ui then Z.of_nat (n_col - n_row + i) else last_nz ri in
    let lj := if uj then Z.of_nat (n_col - n_row + j) else last_nz rj in
    if negb (li =? lj) then li - lj else seq_cmp ri rj.
(** the loops of isl_merge_divs, isl_local_space.c:822-850; [i] and [j] are the numbers of
    rows of the two matrices that have been handled, i.e., the lengths of
    [e1] and [e2]; [div] contains the rows of the result so far *)
Fixpoint merge_loop (fuel : nat) (w c : nat) (M1 M2 : mat) (div : mat) (e1 e2 : list nat) : res (mat * list nat * list nat) :=
  match fuel with
  | O => Div
  | S f =>
    let i := length e1 in let j := length e2 in let k := length div in
    if Nat.ltb i (length M1) && Nat.ltb j (length M2) then
      let r1 := expand_row w c M1 i e1 in
      let r2 := expand_row w c M2 j e2 in
      let cmp := cmp_row r1 r2 k (k + 1) (1 + length M1 + length M2) w in
      if cmp =? 0 then merge_loop f w c M1 M2 (div ++ [r1]) (e1 ++ [k]) (e2 ++ [k])
      else if cmp <? 0 then merge_loop f w c M1 M2 (div ++ [r1]) (e1 ++ [k]) e2
      else merge_loop f w c M1 M2 (div ++ [r2]) e1 (e2 ++ [k])
    else if Nat.ltb i (length M1) then merge_loop f w c M1 M2 (div ++ [expand_row w c M1 i e1]) (e1 ++ [k]) e2
    else if Nat.ltb j (length M2) then merge_loop f w c M1 M2 (div ++ [expand_row w c M2 j e2]) e1 (e2 ++ [k])
    else Ok (div, e1, e2)
  end.
(** isl_merge_divs, isl_local_space.c:805-851; [d] is the number of variables.
    The second matrix is required to have the same number of variables. *)
Definition merge_divs (d : nat) (M1 M2 : mat) : res (mat * list nat * list nat) :=
  let n := (length M1 + length M2)%nat in
  let! (div, e1, e2) := merge_loop (1 + n) (2 + d + n) (2 + d) M1 M2 [] [] [] in
  Ok (map (firstn (2 + d + length div)) div, e1, e2).
