(** What a quasi-polynomial means: its value at an integer point. *)
From Coq Require Import ZArith List Bool QArith Arith Permutation Sorted.
From Verif Require Import SeqSpec MatModel LocalSpec PolySpec SpaceModel QpModel.
Import ListNotations.
Open Scope Q_scope.

(** the value of variable [k] for the values [w] of one, the variables and the integer divisions *)
Definition wval (w : list Z) (k : nat) : Q := inject_Z (nth (1 + k) w 0%Z).
(** [q] takes the value [r] at the point with homogeneous coordinates [v] *)
Definition qvalue (q : qp) (v : list Z) (r : Q) : Prop :=
  exists w, sat (q_d q) (q_div q) w /\ firstn (1 + q_d q) w = v /\ r == pval (wval w) (q_poly q).
(** the integer divisions are given explicitly in terms of earlier ones *)
Definition wf_qp (q : qp) : Prop :=
  wf_divs (q_d q) (q_div q) /\ known (q_div q) /\ ordered (q_d q + q_n q) (q_poly q).
(** the coordinates of an integer point in [d] dimensions *)
Definition int_point (d : nat) (v : list Z) : Prop := length v = (1 + d)%nat /\ nth 0 v 0%Z = 1%Z.
(** [qsort] returns a permutation of its argument that is in non-decreasing order *)
Definition sorts (qsort : (nat -> nat -> Z) -> list nat -> list nat) : Prop :=
  forall cmp l, Permutation.Permutation l (qsort cmp l) /\
    ((forall a b, cmp a b <= 0 \/ cmp b a <= 0)%Z -> (forall a b c, cmp a b <= 0 -> cmp b c <= 0 -> cmp a c <= 0)%Z ->
     Sorted.StronglySorted (fun a b => cmp a b <= 0)%Z (qsort cmp l)).
(** the value at [v] of the affine expression with denominator and coefficients [a] over the integer divisions [M] *)
Definition aff_value (d : nat) (M : mat) (a : list Z) (v : list Z) (r : Q) : Prop :=
  exists w, sat d M w /\ firstn (1 + d) w = v /\ inject_Z (nth 0 a 0%Z) * r == inject_Z (SeqSpec.dot (skipn 1 a) w).
(** no integer division refers to another one *)
Definition flat (d : nat) (M : mat) : Prop := forall j k, (2 + d <= k)%nat -> nth k (nth j M []) 0%Z = 0%Z.
(** the coordinates in [d] dimensions before and after moving [n] of them from position [src] to position [dst] *)
Inductive moved (d dst src n : nat) : list Z -> list Z -> Prop :=
| moved_down A B C D : length A = dst -> (dst + length B = src)%nat -> length C = n -> (dst + length B + n + length D = d)%nat -> moved d dst src n (1 :: A ++ B ++ C ++ D)%Z (1 :: A ++ C ++ B ++ D)%Z
| moved_up A B C D : length A = src -> (src + length B = dst)%nat -> (0 < length B)%nat -> length C = n -> (src + length B + n + length D = d)%nat -> moved d dst src n (1 :: A ++ C ++ B ++ D)%Z (1 :: A ++ B ++ C ++ D)%Z.
