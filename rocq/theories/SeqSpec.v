(** Specifications for vectors of integers. *)
From Coq Require Import ZArith List.
Import ListNotations.
Open Scope Z_scope.

(** the inner product *)
Fixpoint dot (l m : list Z) : Z :=
  match l, m with x :: l', y :: m' => x * y + dot l' m' | _, _ => 0 end.
(** [r] is the combination [a l + b m] *)
Definition is_combination (a : Z) (l : list Z) (b : Z) (m r : list Z) : Prop :=
  length r = length l /\ forall i, (i < length l)%nat -> nth i r 0 = a * nth i l 0 + b * nth i m 0.
(** [g] is the non-negative greatest common divisor of the elements *)
Definition is_gcd (g : Z) (l : list Z) : Prop :=
  0 <= g /\ (forall x, In x l -> (g | x)) /\ forall d, (forall x, In x l -> (d | x)) -> (d | g).
(** [m] is a least common multiple of the elements *)
Definition is_lcm (m : Z) (l : list Z) : Prop :=
  (forall x, In x l -> (x | m)) /\ forall d, (forall x, In x l -> (x | d)) -> (m | d).
(** lexicographic order *)
Inductive lex : list Z -> list Z -> Prop :=
| lex_here x y l m : x < y -> lex (x :: l) (y :: m)
| lex_next x l m : lex l m -> lex (x :: l) (x :: m).
(** replacing the value of one variable *)
Definition with_value (x : list Z) (i : nat) (v : Z) : list Z := firstn i x ++ v :: skipn (S i) x.
