(** Specification of sorting. *)
From Coq Require Import ZArith List Bool Sorted Permutation.
Import ListNotations.

(** comparison functions of a total preorder *)
Record total_preorder {A} (cmp : A -> A -> Z) : Prop := {
  tp_anti : forall x y, Z.sgn (cmp x y) = (- Z.sgn (cmp y x))%Z;
  tp_trans : forall x y z, (cmp x y <= 0)%Z -> (cmp y z <= 0)%Z -> (cmp x z <= 0)%Z
}.

(** [l'] is a sorted rearrangement of [l] ... *)
Definition sorted_rearrangement {A} (cmp : A -> A -> Z) (l l' : list A) : Prop :=
  Permutation l l' /\ StronglySorted (fun x y => (cmp x y <= 0)%Z) l'.
(** ... that keeps elements that compare equal in their original order *)
Definition stable {A} (cmp : A -> A -> Z) (l l' : list A) : Prop :=
  forall x, filter (fun y => (cmp x y =? 0)%Z) l' = filter (fun y => (cmp x y =? 0)%Z) l.
