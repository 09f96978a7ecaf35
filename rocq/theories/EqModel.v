(** Model of isl_equalities.c: variable and parameter compression. *)
From Coq Require Import ZArith List Bool.
From Verif Require Import SeqModel MatModel.
Import ListNotations.
Open Scope Z_scope.

(** isl_mat_aff_direct_sum, isl_mat.c:535-583 *)
Definition mat_aff_direct_sum (nr nc1 : nat) (L : mat) (nc2 : nat) (R : mat) : res mat :=
  if Nat.eqb nr 0 || Nat.eqb nc1 0 || Nat.eqb nc2 0 then Null
  else
    match seq_first_non_zero (skipn 1 (mrow L 0)), seq_first_non_zero (skipn 1 (mrow R 0)) with
    | None, None =>
      let d := Z.lcm (get L 0 0) (get R 0 0) in
      let l0 := divexact d (get L 0 0) in
      let r0 := divexact d (get R 0 0) in
      Ok (tab nr (nc1 + nc2 - 1) (fun r c =>
            match r, c with
            | O, O => d
            | O, S _ => 0
            | S _, O => l0 * get L r 0 + r0 * get R r 0
            | S _, S _ => if Nat.ltb c nc1 then get L r c * l0 else get R r (c - nc1 + 1) * r0
            end))
    | _, _ => Null
    end.
(** insert_parameter_rows, isl_equalities.c:461-481, on a matrix with [nr] rows *)
Definition insert_parameter_rows (nr nc : nat) (M : mat) (nparam : nat) : mat :=
  if Nat.eqb nparam 0 then M
  else tab (nparam + nr) nc (fun r c =>
         if Nat.ltb r 1 then get M r c
         else if Nat.ltb r (1 + nparam) then (if Nat.eqb c r then get M 0 0 else 0)
         else get M (r - nparam) c).
(** isl_int_is_divisible_by for non-zero divisors, isl_int.h *)
Definition divisible_by (a b : Z) : bool := a mod b =? 0.

(** isl_mat_final_variable_compression, isl_equalities.c:530-608.  [B] has [m]
    rows and [1 + first + n] columns.  The result is [None] if a zero-column
    matrix is returned (empty_compression, isl_equalities.c:443-455); otherwise
    the matrices T and T2, with [1 + first + n] rows and columns, respectively *)
Definition final_variable_compression (m first n : nat) (B : mat) : res (option (mat * mat)) :=
  if Nat.ltb n m then Null
  else
    match left_hermite m n (mat_sub B 0 m (1 + first) n) false with
    | None => Div
    | Some s =>
      let T2 := mat_diagonal (1 + first) (1 + first) (mat_identity (1 + first)) (n - m) n (mat_sub (hQ s) m (n - m) 0 n) in
      let C := tab (1 + m) (1 + first) (fun r c =>
                 match r, c with O, O => 1 | O, S _ => 0 | S i, _ => - get B i c end) in
      let H1 := mat_lin_to_aff m m (mat_sub (hM s) 0 m 0 m) in
      match inverse_product (1 + m) (1 + first) H1 C with
      | Ok C =>
        let test := fun i =>
          let g := seq_gcd (skipn 1 (mrow C (1 + i))) in
          let g := Z.gcd g (get C 0 0) in
          divisible_by (get C (1 + i) 0) g in
        if negb (get C 0 0 =? 1) && negb (forallb test (seq 0 m)) then Ok None
        else
          match (if get C 0 0 =? 1 then Ok C else mat_normalize (1 + m) C) with
          | Ok C =>
            let U1 := mat_lin_to_aff n m (mat_sub (hU s) 0 n 0 m) in
            let U2 := mat_lin_to_aff n (n - m) (mat_sub (hU s) 0 n m (n - m)) in
            let C := mat_product (1 + n) (1 + first) U1 C in
            match mat_aff_direct_sum (1 + n) (1 + first) C (1 + (n - m)) U2 with
            | Ok C => Ok (Some (insert_parameter_rows (1 + n) (1 + first + (n - m)) C first, T2))
            | Null => Null | UB => UB | Div => Div
            end
          | Null => Null | UB => UB | Div => Div
          end
      | Null => Null | UB => UB | Div => Div
      end
    end.
(** isl_mat_variable_compression, isl_equalities.c:625-629 *)
Definition variable_compression (m n : nat) (B : mat) : res (option (mat * mat)) :=
  final_variable_compression m 0 n B.

(** particular_solution, isl_equalities.c:66-119.  [B] has [m] rows and [1 + n]
    columns.  [None] for a zero-column matrix, otherwise an [n] x 1 matrix *)
Definition particular_solution (m n : nat) (B : mat) (d : list Z) : res (option mat) :=
  let M := tab m (m + n) (fun i j =>
             if Nat.ltb j m then (if Nat.eqb i j then nth i d 0 else 0)
             else fdiv_r (get B i (1 + (j - m))) (nth i d 0)) in
  let C := tab (1 + m) 1 (fun r _ => match r with O => 1 | S i => fdiv_r (- get B i 0) (nth i d 0) end) in
  match left_hermite m (m + n) M false with
  | None => Div
  | Some s =>
    let H := mat_lin_to_aff m m (mat_sub (hM s) 0 m 0 m) in
    match inverse_product (1 + m) 1 H C with
    | Ok C =>
      if negb (forallb (fun i => divisible_by (get C (1 + i) 0) (get C 0 0)) (seq 0 m)) then Ok None
      else
        let cst := tab m 1 (fun i _ => divexact (get C (1 + i) 0) (get C 0 0)) in
        let T := mat_sub (hU s) m n 0 m in
        Ok (Some (mat_product n 1 T cst))
    | Null => Null | UB => UB | Div => Div
    end
  end.

(** isl_mat_col_mul, isl_mat.c:1669-1676 *)
Definition mat_col_mul (nr nc : nat) (M : mat) (dst : nat) (f : Z) (src : nat) : mat :=
  tab nr nc (fun r c => if Nat.eqb c dst then f * get M r src else get M r c).
(** parameter_compression_1, isl_equalities.c:129-145 *)
Definition parameter_compression_1 (n : nat) (B : mat) (d : list Z) : res mat :=
  let U := tab n n (fun r c => if Nat.eqb r 0 then get B 0 (1 + c) else 0) in
  match unimodular_complete n U 1 with
  | Ok U =>
    match right_inverse n n U with
    | Ok U => Ok (mat_lin_to_aff n n (mat_col_mul n n U 0 (nth 0 d 0) 0))
    | Null => Null | UB => UB | Div => Div
    end
  | Null => Null | UB => UB | Div => Div
  end.
(** the loop of parameter_compression_multi, isl_equalities.c:183-198; [A] is
    [n] x [m n] *)
Fixpoint compression_loop (m n : nat) (B : mat) (d : list Z) (D : Z) (rows : list nat) (A : mat) : res mat :=
  match rows with
  | [] => Ok A
  | i :: rows' =>
    match unimodular_complete n (tab n n (fun r c => if Nat.eqb r 0 then get B i (1 + c) else 0)) 1 with
    | Ok U =>
      let D1 := divexact D (nth i d 0) in
      let A := tab n (m * n) (fun k c =>
                 if Nat.leb (i * n) c && Nat.ltb c (i * n + n)
                 then (if Nat.eqb c (i * n) then D1 * get U 0 k else D1 * nth i d 0 * get U (c - i * n) k)
                 else get A k c) in
      compression_loop m n B d (D1 * nth i d 0) rows' A
    | Null => Null | UB => UB | Div => Div
    end
  end.
(** parameter_compression_multi, isl_equalities.c:160-213 *)
Definition parameter_compression_multi (m n : nat) (B : mat) (d : list Z) : res mat :=
  let D := seq_lcm d in
  match compression_loop m n B d D (seq 0 m) (mat_zero n (m * n)) with
  | Ok A =>
    match left_hermite n (m * n) A false with
    | None => Div
    | Some s =>
      let T := mat_lin_to_aff n n (mat_sub (hM s) 0 n 0 n) in
      let T := tab (1 + n) (1 + n) (fun r c => if Nat.eqb r 0 && Nat.eqb c 0 then D else get T r c) in
      match right_inverse (1 + n) (1 + n) T with
      | Ok T => if get T 0 0 =? 1 then Ok (mat_transpose (1 + n) (1 + n) T) else Null
      | Null => Null | UB => UB | Div => Div
      end
    end
  | Null => Null | UB => UB | Div => Div
  end.
(** the loop of isl_mat_parameter_compression, isl_equalities.c:331-355 *)
Fixpoint scale_rows (rows : mat) (d : list Z) : mat * list Z :=
  match rows, d with
  | row :: rows', x :: d' =>
    let '(R, D) := scale_rows rows' d' in
    let g := seq_gcd (skipn 1 row) in
    if g =? 1 then (row :: R, x :: D)
    else if g =? 0 then (R, D)
    else ((hd 0 row :: seq_scale_down (skipn 1 row) g) :: R, divexact x (Z.gcd g x) :: D)
  | _, _ => ([], [])
  end.
(** isl_mat_parameter_compression, isl_equalities.c:309-379; [None] for a
    zero-column matrix *)
Definition parameter_compression (m n : nat) (B : mat) (d : list Z) : res (option mat) :=
  match particular_solution m n B d with
  | Ok None => Ok None
  | Ok (Some cst) =>
    let '(B, d) := scale_rows B d in
    let m := length B in
    let T := match m with
             | O => Ok (mat_identity (1 + n))
             | S O => parameter_compression_1 n B d
             | _ => parameter_compression_multi m n B d
             end in
    match T with
    | Ok T =>
      match left_hermite (1 + n) (1 + n) T false with
      | None => Div
      | Some s => Ok (Some (tab (1 + n) (1 + n) (fun r c =>
                    if Nat.eqb c 0 && negb (Nat.eqb r 0) then get cst (r - 1) 0 else get (hM s) r c)))
      end
    | Null => Null | UB => UB | Div => Div
    end
  | Null => Null | UB => UB | Div => Div
  end.
