(** Specification of subtraction and of the tests on maps: what is expected of
    the tableau and of the parts of the library that are not modelled. *)
From Coq Require Import ZArith List.
From Verif Require Import MatModel LocalSpec BMapModel BMapSpec BMapSem BElimModel BElimSpec SetBase SetSpec SetOps SetMaps.
Import ListNotations.
Open Scope Z_scope.

(** an integer assignment to the variables of a basic map that satisfies its constraints *)
Definition solves (b : bmap) (v : list Z) : Prop :=
  length v = (1 + total b)%nat /\ hd 0 v = 1 /\ system (b_eq b) (b_ineq b) v.
(** a tableau is only found to be empty if there is no integer solution *)
Definition sound_emptiness (empty : nat -> bmap -> bool) : Prop :=
  forall s b, wf b -> b_rat b = false -> empty s b = true -> forall v, ~ solves b v.
(** the frozen inequalities and those that are not redundant imply the other ones *)
Definition sound_redundancy (redundant : nat -> bmap -> nat -> list bool) : Prop :=
  forall s b n v, wf b -> b_rat b = false -> length v = (1 + total b)%nat -> hd 0 v = 1 -> Forall (zero_on v) (b_eq b) ->
    (forall i, (i < length (b_ineq b))%nat -> (i < n)%nat \/ nth i (redundant s b n) false = false -> nonneg_on v (nth i (b_ineq b) [])) ->
    Forall (nonneg_on v) (b_ineq b).
(** what a non-empty tableau knows about the inequalities is true *)
Definition sound_kinds (kinds : nat -> bmap -> list kind) : Prop :=
  forall s b, wf b -> b_rat b = false -> classified b false (kinds s b).
(** a basic map is only found to be without integer points if it has none ... *)
Definition sound_sample (no_sample : bmap -> bool) : Prop :=
  forall b q, proper b -> no_sample b = true -> length q = (1 + nvar b)%nat -> hd 0 q = 1 -> ~ points b q.
(** ... and if it has none, this is found *)
Definition complete_sample (no_sample : bmap -> bool) : Prop :=
  forall b, proper b -> no_sample b = false -> exists q, length q = (1 + nvar b)%nat /\ hd 0 q = 1 /\ points b q.
(** the computation of explicit representations keeps the points *)
Definition sound_explicit (explicit_divs : list bmap -> res (list bmap)) : Prop :=
  forall np ni no l l', okm np ni no l -> explicit_divs l = Ok l' ->
    okm np ni no l' /\ Forall (fun b => LocalSpec.known (b_div b) /\ ordered b) l' /\
    forall P I O, length P = np -> length I = ni -> length O = no -> (relates_any l' P I O <-> relates_any l P I O).
(** the pairs of integer vectors of the right sizes *)
Definition triple (np ni no : nat) (P I O : list Z) : Prop := length P = np /\ length I = ni /\ length O = no.
