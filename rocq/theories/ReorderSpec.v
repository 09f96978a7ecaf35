(** Specifications for the alignment of parameters. *)
From Coq Require Import ZArith List.
Import ListNotations.

(** the names of the aligned parameters: first those of the model [Q], then the
    other ones *)
Definition mem (n : option Z) (Q : list (option Z)) : bool :=
  existsb (fun m => match n, m with Some a, Some b => Z.eqb a b | _, _ => false end) Q.
Definition aligned (P Q : list (option Z)) : list (option Z) := Q ++ filter (fun n => negb (mem n Q)) P.
Definition named (P : list (option Z)) : Prop := ~ In None P.
(** the values [p] and [q] of parameters named [P] and [Q]: parameters with the
    same name have the same value *)
Definition agree (P : list (option Z)) (p : list Z) (Q : list (option Z)) (q : list Z) : Prop :=
  forall i j n, nth_error P i = Some (Some n) -> nth_error Q j = Some (Some n) -> nth i p 0%Z = nth j q 0%Z.
