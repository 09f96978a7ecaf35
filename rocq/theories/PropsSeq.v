(** Property C20: the primitives on integer vectors compute linear combinations. *)
From Coq Require Import ZArith List Bool Lia.
From Verif Require Import SeqModel SeqSpec SeqProofs.
Import ListNotations.
Open Scope Z_scope.

(** isl_seq_combine, whether or not the result replaces the first operand *)
Theorem C20_combine : forall alias m1 src1 m2 src2, length src1 = length src2 ->
  is_combination m1 src1 m2 src2 (seq_combine alias m1 src1 m2 src2).
Proof. exact combine_ok. Qed.
Print Assumptions C20_combine.
Theorem C20_addmul : forall dst f src, length dst = length src -> is_combination 1 dst f src (seq_addmul dst f src).
Proof. exact addmul_ok. Qed.
Theorem C20_submul : forall dst f src, length dst = length src -> is_combination 1 dst (- f) src (seq_submul dst f src).
Proof. exact submul_ok. Qed.

(** isl_seq_elim replaces dst by a combination with a positive multiplier of
    dst, scales [m] by that multiplier and zeroes the pivot position; the
    factors are coprime *)
Theorem C20_elim : forall dst src pos m,
  length dst = length src -> (pos < length dst)%nat -> nth pos src 0 <> 0 ->
  exists a b, 0 < a /\ is_combination a dst b src (fst (seq_elim dst src pos m)) /\
    snd (seq_elim dst src pos m) = m * a /\ nth pos (fst (seq_elim dst src pos m)) 0 = 0 /\ Z.gcd a b = 1.
Proof. exact elim_ok. Qed.
Print Assumptions C20_elim.
(** both divisions in isl_seq_elim are exact, and the factors are those of the
    comment before the function *)
Theorem C20_elim_factors : forall s d, s <> 0 ->
  let g := Z.gcd s d in
  let a := Z.abs (s / g) in let b := if 0 <? s then - (d / g) else d / g in
  0 < g /\ (g | s) /\ (g | d) /\ 0 < a /\ a * d + b * s = 0 /\ g * a = Z.abs s /\ g * b = - Z.sgn s * d /\ Z.gcd a b = 1.
Proof. exact elim_factors. Qed.

(** comparisons *)
Theorem C20_eq : forall p1 p2, length p1 = length p2 -> (seq_eq p1 p2 = true <-> p1 = p2).
Proof. exact seq_eq_ok. Qed.
Theorem C20_cmp : forall p1 p2, length p1 = length p2 ->
  (seq_cmp p1 p2 < 0 <-> lex p1 p2) /\ (seq_cmp p1 p2 = 0 <-> p1 = p2) /\ (0 < seq_cmp p1 p2 <-> lex p2 p1).
Proof. exact seq_cmp_ok. Qed.
Theorem C20_is_neg : forall p1 p2, length p1 = length p2 -> (seq_is_neg p1 p2 = true <-> p1 = map Z.opp p2).
Proof. exact seq_is_neg_ok. Qed.

(** searches *)
Theorem C20_first_non_zero : forall p,
  match seq_first_non_zero p with
  | Some k => (k < length p)%nat /\ nth k p 0 <> 0 /\ forall l, (l < k)%nat -> nth l p 0 = 0
  | None => forall l, nth l p 0 = 0
  end.
Proof. exact first_non_zero_ok. Qed.
Theorem C20_last_non_zero : forall p,
  match seq_last_non_zero p with
  | Some k => (k < length p)%nat /\ nth k p 0 <> 0 /\ forall l, (k < l)%nat -> nth l p 0 = 0
  | None => forall l, nth l p 0 = 0
  end.
Proof. exact last_non_zero_ok. Qed.
Theorem C20_abs_max : forall p, 0 <= seq_abs_max p /\ (forall x, In x p -> Z.abs x <= seq_abs_max p) /\
  (seq_abs_max p = 0 \/ exists x, In x p /\ seq_abs_max p = Z.abs x).
Proof. exact abs_max_ok. Qed.
Theorem C20_abs_min_non_zero : forall p,
  match seq_abs_min_non_zero p with
  | Some k => (k < length p)%nat /\ nth k p 0 <> 0 /\
              forall l, (l < length p)%nat -> nth l p 0 <> 0 -> Z.abs (nth k p 0) <= Z.abs (nth l p 0)
  | None => forall l, nth l p 0 = 0
  end.
Proof. exact abs_min_ok. Qed.

(** divisibility *)
Theorem C20_gcd : forall p, is_gcd (seq_gcd p) p.
Proof. exact seq_gcd_ok. Qed.
Print Assumptions C20_gcd.
Theorem C20_normalize : forall p, exists g, is_gcd g p /\ length (seq_normalize p) = length p /\
  (forall i, nth i p 0 = g * nth i (seq_normalize p) 0) /\ (g <> 0 -> is_gcd 1 (seq_normalize p)).
Proof. exact normalize_ok. Qed.
Print Assumptions C20_normalize.
Theorem C20_lcm : forall p, is_lcm (seq_lcm p) p.
Proof. exact lcm_ok. Qed.

Theorem C20_inner_product : forall p1 p2, seq_inner_product p1 p2 = dot p1 p2.
Proof. exact inner_ok. Qed.

(** isl_seq_substitute: if [f] is the value of the substituted expression
    [subs] at the values [x] of the constant and the variables, then the new
    numerator at [x] is the old one at [x] with [f] for the variable, over the
    product of the denominators *)
Theorem C20_substitute : forall p pos subs x f,
  (2 <= length subs <= length p)%nat -> (1 + pos < length p)%nat ->
  length x = (length p - 1)%nat ->
  hd 0 subs * f = dot (tl subs) x ->
  let p' := seq_substitute p pos subs in
  length p' = length p /\ hd 0 p' = hd 0 p * hd 0 subs /\
  dot (tl p') x = hd 0 subs * dot (tl p) (with_value x pos f).
Proof. exact substitute_ok. Qed.
Print Assumptions C20_substitute.

Example C20_ex :
  seq_elim [5; -6; 7] [1; 4; 2] 1 10 = ([13; 0; 20], 20) /\
  seq_elim [5; -6; 7] [1; -4; 2] 1 10 = ([7; 0; 8], 20) /\
  seq_gcd [12; 0; -18; 30] = 6 /\ seq_normalize [12; 0; -18; 30] = [2; 0; -3; 5] /\
  seq_abs_min_non_zero [0; 12; -4; 5; 4] = Some 2%nat /\ seq_lcm [4; 6] = 12 /\
  seq_cmp [1; 2; 3] [1; 3; 0] = -1 /\ seq_is_neg [1; 0; -2] [-1; 0; 2] = true /\
  (* (2 + 3 i + j)/5 with i = (1 + 4 j)/7 *)
  seq_substitute [5; 2; 3; 1] 1 [7; 1; 0; 4] = [35; 17; 0; 19].
Proof. repeat split. Qed.
(** [x] = (1, i, j) with j = 5 gives i = 3 *)
Example C20_ex_substitute :
  let p := [5; 2; 3; 1] in let subs := [7; 1; 0; 4] in let x := [1; 99; 5] in
  (2 <= length subs <= length p)%nat /\ (1 + 1 < length p)%nat /\ length x = (length p - 1)%nat /\
  hd 0 subs * 3 = dot (tl subs) x.
Proof. cbn. repeat split; lia. Qed.
