(** What a list of integer divisions means. *)
From Coq Require Import ZArith List Bool Arith.
From Verif Require Import MatModel SeqSpec.
Import ListNotations.
Open Scope Z_scope.

(** the row [r] of integer division [i] out of [n] over [d] variables: the denominator is not negative
    and only variables and earlier integer divisions appear *)
Definition div_row (d n i : nat) (r : list Z) : Prop :=
  length r = (2 + d + n)%nat /\ 0 <= nth 0 r 0 /\ forall j, (2 + d + i <= j)%nat -> nth j r 0 = 0.
Definition wf_divs (d : nat) (M : mat) : Prop := forall i, (i < length M)%nat -> div_row d (length M) i (nth i M []).
(** all integer divisions have an explicit representation *)
Definition known (M : mat) : Prop := forall i, (i < length M)%nat -> nth 0 (nth i M []) 0 <> 0.
(** [w] contains one, the values of the variables and those of the integer divisions *)
Definition sat (d : nat) (M : mat) (w : list Z) : Prop :=
  length w = (1 + d + length M)%nat /\ nth 0 w 0 = 1 /\
  forall i, (i < length M)%nat -> nth 0 (nth i M []) 0 <> 0 ->
    nth (1 + d + i) w 0 = dot (skipn 1 (nth i M [])) w / nth 0 (nth i M []) 0.
(** the values of the integer divisions at the positions [e] *)
Definition select (d : nat) (e : list nat) (w : list Z) : list Z := firstn (1 + d) w ++ map (fun k => nth (1 + d + k) w 0) e.
