(** Model of isl_seq.c: operations on vectors of integers.

    A region of [len] isl_ints is the list of its values; the length argument
    of the C functions is the length of the list.  isl_int is Z (see
    IntModel.v for the arithmetic itself).  [divexact] is only specified when
    the division is exact; the theorems show that this is the case.  Positions
    are [option nat], with [None] for -1. *)
From Coq Require Import ZArith List Bool.
Import ListNotations.
Open Scope Z_scope.

(** isl_int_divexact, isl_int.h and its backends, on exact divisions *)
Definition divexact (a b : Z) : Z := a / b.
(** isl_int_fdiv_q, isl_int_cdiv_q, isl_int_fdiv_r for non-zero divisors *)
Definition fdiv_q (a b : Z) : Z := a / b.
Definition cdiv_q (a b : Z) : Z := - ((- a) / b).
Definition fdiv_r (a b : Z) : Z := a mod b.

Fixpoint map2 {A B C} (f : A -> B -> C) (l : list A) (m : list B) : list C :=
  match l, m with x :: l', y :: m' => f x y :: map2 f l' m' | _, _ => [] end.

(** isl_seq_clr, isl_seq.c:14-19 *)
Definition seq_clr (len : nat) : list Z := repeat 0 len.
(** isl_seq_set, isl_seq.c:28-33, and isl_seq_set_si, isl_seq.c:21-26 *)
Definition seq_set (v : Z) (len : nat) : list Z := repeat v len.
(** isl_seq_neg, isl_seq.c:35-40 *)
Definition seq_neg (src : list Z) : list Z := map Z.opp src.
(** isl_seq_submul, isl_seq.c:49-54 *)
Definition seq_submul (dst : list Z) (f : Z) (src : list Z) : list Z := map2 (fun d s => d - f * s) dst src.
(** isl_seq_addmul, isl_seq.c:56-61 *)
Definition seq_addmul (dst : list Z) (f : Z) (src : list Z) : list Z := map2 (fun d s => d + f * s) dst src.
(** isl_seq_scale, isl_seq.c:70-75 *)
Definition seq_scale (src : list Z) (m : Z) : list Z := map (fun x => x * m) src.
(** isl_seq_scale_down, isl_seq.c:77-82 *)
Definition seq_scale_down (src : list Z) (m : Z) : list Z := map (fun x => divexact x m) src.
(** isl_seq_cdiv_q, isl_seq.c:84-89 *)
Definition seq_cdiv_q (src : list Z) (m : Z) : list Z := map (fun x => cdiv_q x m) src.
(** isl_seq_fdiv_q, isl_seq.c:91-96 *)
Definition seq_fdiv_q (src : list Z) (m : Z) : list Z := map (fun x => fdiv_q x m) src.
(** isl_seq_fdiv_r, isl_seq.c:98-103 *)
Definition seq_fdiv_r (src : list Z) (m : Z) : list Z := map (fun x => fdiv_r x m) src.
(** isl_seq_combine, isl_seq.c:105-126; [alias] tells whether dst == src1 *)
Definition seq_combine (alias : bool) (m1 : Z) (src1 : list Z) (m2 : Z) (src2 : list Z) : list Z :=
  if alias && (m1 =? 1) then
    if m2 =? 0 then src1
    else map2 (fun x y => x + m2 * y) src1 src2
  else map2 (fun x y => m1 * x + m2 * y) src1 src2.
(** isl_seq_elim, isl_seq.c:135-160; [m] is the value pointed to by the last
    argument.  Returns the new values of dst and of *m *)
Definition seq_elim (dst src : list Z) (pos : nat) (m : Z) : list Z * Z :=
  if nth pos dst 0 =? 0 then (dst, m)
  else
    let a := Z.gcd (nth pos src 0) (nth pos dst 0) in
    let b := divexact (nth pos dst 0) a in
    let b := if 0 <? nth pos src 0 then - b else b in
    let a := divexact (nth pos src 0) a in
    let a := Z.abs a in
    (seq_combine true a dst b src, m * a).
(** isl_seq_eq, isl_seq.c:162-169 *)
Fixpoint seq_eq (p1 p2 : list Z) : bool :=
  match p1, p2 with
  | x :: p1', y :: p2' => if negb (x =? y) then false else seq_eq p1' p2'
  | _, _ => true
  end.
(** isl_int_cmp *)
Definition int_cmp (x y : Z) : Z := if x <? y then -1 else if y <? x then 1 else 0.
(** isl_seq_cmp, isl_seq.c:171-179 *)
Fixpoint seq_cmp (p1 p2 : list Z) : Z :=
  match p1, p2 with
  | x :: p1', y :: p2' => let cmp := int_cmp x y in if negb (cmp =? 0) then cmp else seq_cmp p1' p2'
  | _, _ => 0
  end.
(** isl_seq_is_neg, isl_seq.c:181-194 *)
Fixpoint seq_is_neg (p1 p2 : list Z) : bool :=
  match p1, p2 with
  | x :: p1', y :: p2' =>
    if negb (Z.abs x =? Z.abs y) then false
    else if x =? 0 then seq_is_neg p1' p2'
    else if x =? y then false
    else seq_is_neg p1' p2'
  | _, _ => true
  end.
(** isl_seq_first_non_zero, isl_seq.c:196-204; [i] is the loop counter *)
Fixpoint first_non_zero_from (i : nat) (p : list Z) : option nat :=
  match p with
  | [] => None
  | x :: p' => if negb (x =? 0) then Some i else first_non_zero_from (S i) p'
  end.
Definition seq_first_non_zero (p : list Z) : option nat := first_non_zero_from 0 p.
(** isl_seq_last_non_zero, isl_seq.c:206-214; the loop runs downwards from [i] *)
Fixpoint last_non_zero_from (i : nat) (p : list Z) : option nat :=
  match i with
  | O => None
  | S i' => if negb (nth i' p 0 =? 0) then Some i' else last_non_zero_from i' p
  end.
Definition seq_last_non_zero (p : list Z) : option nat := last_non_zero_from (length p) p.
(** isl_seq_abs_max, isl_seq.c:216-225 *)
Definition seq_abs_max (p : list Z) : Z :=
  fold_left (fun max x => if max <? Z.abs x then Z.abs x else max) p 0.
(** isl_seq_abs_min_non_zero, isl_seq.c:227-239; the loop over the elements
    [p] from position [i] on, [min] and [vmin] are the current position and
    the value there *)
Fixpoint abs_min_loop (i : nat) (p : list Z) (min : nat) (vmin : Z) : nat :=
  match p with
  | [] => min
  | x :: p' =>
    if x =? 0 then abs_min_loop (S i) p' min vmin
    else if Z.abs x <? Z.abs vmin then abs_min_loop (S i) p' i x
    else abs_min_loop (S i) p' min vmin
  end.
(** isl_seq_abs_min_non_zero, isl_seq.c:227-239 *)
Definition seq_abs_min_non_zero (p : list Z) : option nat :=
  match seq_first_non_zero p with
  | None => None
  | Some min => Some (abs_min_loop (S min) (skipn (S min) p) min (nth min p 0))
  end.
(** the loop of isl_seq_gcd, isl_seq.c:250-256 *)
Fixpoint gcd_loop (i : nat) (p : list Z) (min : nat) (gcd : Z) : Z :=
  match p with
  | [] => gcd
  | x :: p' =>
    if 1 <? gcd then
      if Nat.eqb i min then gcd_loop (S i) p' min gcd
      else if x =? 0 then gcd_loop (S i) p' min gcd
      else gcd_loop (S i) p' min (Z.gcd gcd x)
    else gcd
  end.
(** isl_seq_gcd, isl_seq.c:241-257 *)
Definition seq_gcd (p : list Z) : Z :=
  match seq_abs_min_non_zero p with
  | None => 0
  | Some min => gcd_loop 0 p min (Z.abs (nth min p 0))
  end.
(** isl_seq_normalize, isl_seq.c:259-267 *)
Definition seq_normalize (p : list Z) : list Z :=
  match p with
  | [] => []
  | _ => let g := seq_gcd p in
         if negb (g =? 0) && negb (g =? 1) then seq_scale_down p g else p
  end.
(** isl_seq_lcm, isl_seq.c:269-280 *)
Definition seq_lcm (p : list Z) : Z :=
  match p with [] => 1 | x :: p' => fold_left Z.lcm p' x end.
(** isl_seq_inner_product, isl_seq.c:282-293 *)
Definition seq_inner_product (p1 p2 : list Z) : Z :=
  match p1, p2 with
  | x :: p1', y :: p2' => fold_left (fun s xy => s + fst xy * snd xy) (combine p1' p2') (x * y)
  | _, _ => 0
  end.
(** replacing an element *)
Fixpoint zupd (l : list Z) (i : nat) (a : Z) : list Z :=
  match l, i with
  | [], _ => []
  | _ :: t, O => a :: t
  | x :: t, S i' => x :: zupd t i' a
  end.
(** isl_seq_substitute, isl_seq.c:328-336; the lists have lengths p_len and
    subs_len *)
Definition seq_substitute (p : list Z) (pos : nat) (subs : list Z) : list Z :=
  let v := nth (1 + pos) p 0 in
  let p := zupd p (1 + pos) 0 in
  let d := hd 0 subs in
  let n := length subs in
  (hd 0 p * d)
    :: seq_combine true d (firstn (n - 1) (tl p)) v (tl subs) ++ seq_scale (skipn n p) d.
