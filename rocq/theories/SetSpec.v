(** Specification of the operations on basic maps and maps. *)
From Coq Require Import ZArith List.
From Verif Require Import BMapModel BMapSpec BMapSem.
Import ListNotations.
Open Scope Z_scope.

(** the basic map relates the input [I] to the output [O] for the parameter
    values [P] *)
Definition relates (b : bmap) (P I O : list Z) : Prop := points b (1 :: P ++ I ++ O).
(** ... one of the basic maps of a map does *)
Definition relates_any (l : list bmap) (P I O : list Z) : Prop := exists b, List.In b l /\ relates b P I O.
(** a basic map with [np] parameters, [ni] input and [no] output dimensions *)
Definition sized (np ni no : nat) (b : bmap) : Prop := b_param b = np /\ b_in b = ni /\ b_out b = no.
