(** Specification of the decomposition into strongly connected components. *)
From Coq Require Import ZArith List Bool Arith Relations.
Import ListNotations.

Section Spec.
Variable len : nat.
Variable follows : nat -> nat -> option bool.

Definition edge (i j : nat) : Prop := (i < len)%nat /\ (j < len)%nat /\ follows i j = Some true.
Definition reach : nat -> nat -> Prop := clos_refl_trans nat edge.

(** the elements of the components separated by -1, isl_tarjan.h:23 *)
Definition encode (cs : list (list nat)) : list Z :=
  flat_map (fun c => map Z.of_nat c ++ [(-1)%Z]) cs.

(** [c] is a strongly connected component: non-empty, and containing with each
    node exactly the nodes that can reach it and that it can reach *)
Definition is_scc (c : list nat) : Prop :=
  c <> [] /\ forall x, In x c -> forall y, In y c <-> reach x y /\ reach y x.

(** a node of a component only follows nodes of the same or of earlier components *)
Definition topological (cs : list (list nat)) : Prop :=
  forall pre c post x y, cs = pre ++ c :: post -> In x c -> edge x y -> In y (concat (pre ++ [c])).

Definition decomposition (cs : list (list nat)) : Prop :=
  NoDup (concat cs) /\ (forall c, In c cs -> is_scc c) /\ topological cs.
End Spec.
