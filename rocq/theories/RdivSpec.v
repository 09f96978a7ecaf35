(** What isl_basic_map_drop_redundant_divs relies on: the answers of the
    tableau of a basic map hold for its rational points. *)
From Coq Require Import ZArith List.
From Verif Require Import SeqSpec BMapModel BMapSpec BMapSem.
Import ListNotations.
Open Scope Z_scope.

(** an empty tableau only belongs to a basic map without rational points;
    [w] is a vector of values with a common denominator in front *)
Definition sound_empty (tab_empty : bmap -> bool) : Prop :=
  forall b, wf b -> b_empty b = false -> tab_empty b = true -> forall w, length w = (1 + total b)%nat -> 0 < hd 0 w -> ~ system (b_eq b) (b_ineq b) w.
(** the minimum rounded up exceeds all values by less than one *)
Definition sound_min (tab_min : bmap -> list Z -> option Z) : Prop :=
  forall b r g, wf b -> b_empty b = false -> length r = (1 + total b)%nat -> tab_min b r = Some g -> forall w, length w = (1 + total b)%nat -> 0 < hd 0 w -> system (b_eq b) (b_ineq b) w -> hd 0 w * (g - 1) < dot r w.
