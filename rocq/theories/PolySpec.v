(** What a polynomial means: its value at a rational point. *)
From Coq Require Import ZArith List Bool QArith Arith.
From Verif Require Import PolyModel.
Import ListNotations.
Open Scope Q_scope.

(** [x v] is the value of variable [v] *)
Fixpoint pval (x : nat -> Q) (p : poly) : Q :=
  match p with
  | Cst n d => n # Z.to_pos d
  | Rec v l => (fix go l := match l with [] => 0 | a :: t => pval x a + x v * go t end) l
  end.
(** all constants are finite *)
Fixpoint finite (p : poly) : Prop :=
  match p with
  | Cst n d => (0 < d)%Z
  | Rec v l => (fix go l := match l with [] => True | a :: t => finite a /\ go t end) l
  end.
(** the coefficients of a polynomial in a variable only involve earlier
    variables; all variables are less than [b] and the polynomial is not constant
    in its variable *)
Fixpoint ordered (b : nat) (p : poly) : Prop :=
  match p with
  | Cst n d => (0 < d)%Z
  | Rec v l => (v < b)%nat /\ (2 <= length l)%nat /\ p_is_zero (last l p_zero) = false /\
               (fix go l := match l with [] => True | a :: t => ordered v a /\ go t end) l
  end.
(** moreover, the constants are in lowest terms *)
Fixpoint reduced (p : poly) : Prop :=
  match p with
  | Cst n d => Z.gcd n d = 1%Z
  | Rec v l => (fix go l := match l with [] => True | a :: t => reduced a /\ go t end) l
  end.
Definition canonical (b : nat) (p : poly) : Prop := ordered b p /\ reduced p.
(** powers *)
Fixpoint pw (z : Q) (n : nat) : Q := match n with O => 1 | S m => z * pw z m end.
(** the point seen by a polynomial before its variables are renamed by [r] *)
Definition renamed (x : nat -> Q) (r : list nat) (v : nat) : Q := x (nth v r 0%nat).
(** the point seen by a polynomial before variable [first + i] is renamed to [first + exp i] *)
Definition expanded (x : nat -> Q) (exp : list nat) (first v : nat) : Q := if Nat.ltb v first then x v else x (nth (v - first) exp 0 + first)%nat.
(** strictly increasing sequence *)
Definition increasing (l : list nat) : Prop := forall i j, (i < j)%nat -> (j < length l)%nat -> (nth i l 0 < nth j l 0)%nat.
(** the point in which variables [first], ... take the values of the polynomials [subs] *)
Definition substituted (x : nat -> Q) (first n : nat) (subs : list poly) (v : nat) : Q :=
  if Nat.ltb v first then x v else if Nat.leb (first + n) v then x v else pval x (nth (v - first) subs p_zero).
(** the linear expression with coefficients [f] for the variables from [i] on *)
Fixpoint affv (x : nat -> Q) (i : nat) (f : list Z) : Q := match f with [] => 0 | c :: t => inject_Z c * x i + affv x (S i) t end.
(** the point with the given homogeneous coordinates *)
Definition at_vec (vec : list Z) (v : nat) : Q := nth (1 + v) vec 0%Z # Z.to_pos (nth 0 vec 1%Z).
(** the degree in variable [pos] is less than [k] *)
Fixpoint degree_lt (k pos : nat) (p : poly) : Prop :=
  match p with
  | Cst _ _ => (0 < k)%nat
  | Rec v l => (0 < k)%nat /\ (v = pos -> (length l <= k)%nat) /\ (fix go l := match l with [] => True | a :: t => degree_lt k pos a /\ go t end) l
  end.
(** sum of [f 0], ..., [f (n - 1)] *)
Fixpoint qsum (f : nat -> Q) (n : nat) : Q := match n with O => 0 | S m => qsum f m + f m end.
(** variable [u] occurs in [p] *)
Fixpoint occurs (u : nat) (p : poly) : Prop := match p with Cst _ _ => False | Rec v l => u = v \/ (fix go l := match l with [] => False | a :: t => occurs u a \/ go t end) l end.
(** the point seen by a polynomial before [n] variables that do not occur are dropped *)
Definition dropped (x : nat -> Q) (first n v : nat) : Q := if Nat.ltb v first then x v else if Nat.ltb v (first + n) then 0 else x (v - n)%nat.
(** the first [b] powers are zero *)
Definition zero_below (b : nat) (pow : list nat) : Prop := forall i, (i < b)%nat -> nth i pow 0%nat = 0%nat.
(** the product of the powers of the variables from [s] on *)
Fixpoint mono (x : nat -> Q) (s : nat) (pow : list nat) : Q := match pow with [] => 1 | k :: t => pw (x s) k * mono x (S s) t end.
(** value of a term *)
Definition tval (x : nat -> Q) (t : term) : Q := let '(n, d, pow) := t in (n # Z.to_pos d) * mono x 0 pow.
(** value of a list of terms *)
Fixpoint tsum (x : nat -> Q) (l : list term) : Q := match l with [] => 0 | t :: u => tval x t + tsum x u end.
(** total degree of a monomial in the variables from [first] up to [last] *)
Fixpoint tdeg (first last s : nat) (pow : list nat) : nat :=
  match pow with [] => 0%nat | k :: t => ((if Nat.leb first s && Nat.ltb s last then k else 0) + tdeg first last (S s) t)%nat end.
(** the point with the variables from [first] up to [last] multiplied by [s] *)
Definition scaled (x : nat -> Q) (s : Q) (first last v : nat) : Q := if Nat.leb first v && Nat.ltb v last then s * x v else x v.
