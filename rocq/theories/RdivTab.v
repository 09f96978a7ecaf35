(** The tableau of isl_tab.c answers as isl_basic_map_drop_redundant_divs needs. *)
From Coq Require Import ZArith List Bool Arith Lia.
From Verif Require Import SeqModel SeqSpec MatModel BMapModel BMapSpec BMapSem TabModel TabSpec TabBase TabBuild TabMap LpModel LpSpec LpMin LpSolve RdivSpec.
Import ListNotations.
Open Scope Z_scope.

(** whether the tableau of a basic map is empty; where the code returns an error,
    or the fuel runs out, these functions claim nothing *)
Definition empty_of (fuel : nat) (b : bmap) : bool := match from_basic_map fuel b with Ok t => t_empty t | _ => false end.
Definition min_of (fuel : nat) (b : bmap) (r : list Z) : option Z :=
  match from_basic_map fuel b with
  | Ok t => match tab_min fuel t r 1 false with Ok (_, Lp_ok a _) => Some a | _ => None end
  | _ => None
  end.
Lemma empty_of_sound fuel : sound_empty (empty_of fuel).
Proof.
  intros b W Ne. unfold empty_of. pose proof (from_basic_map_keeps fuel b W Ne) as K. destruct (from_basic_map fuel b) as [t| | |]; try discriminate. intros E. rewrite E in K. exact K.
Qed.
Lemma min_of_sound fuel : sound_min (min_of fuel).
Proof.
  intros b r g W Ne Lr. unfold min_of. pose proof (from_basic_map_keeps fuel b W Ne) as K. pose proof (from_basic_map_ok fuel b W Ne) as K2. destruct (from_basic_map fuel b) as [t| | |] eqn:Ef; try discriminate. cbn [wpn] in K2. destruct K2 as (_ & Ntv & _).
  destruct (t_empty t) eqn:Et; [intros _ w Lw Hw Sw; exfalso; apply (K w Lw Hw Sw)|]. destruct K as (R & D & _ & Fe). pose proof (tab_min_ok _ fuel t r 1 false R D Et (from_inundo fuel b t Ne Ef) ltac:(congruence) ltac:(lia)) as M.
  destruct (tab_min fuel t r 1 false) as [[t' o]| | |]; try discriminate. cbn [wp] in M. destruct M as (_ & _ & _ & _ & Mn). unfold min_spec in Mn. destruct o as [| |a d]; try discriminate. intros [= <-] w Lw Hw Sw. destruct Mn as (a0 & d0 & (Dp & Lo & _) & _ & _ & Ru). unfold rounded_up in Ru.
  assert (Fw : feas (b_eq b ++ b_ineq b) t w) by (apply (Fe w Hw); split; assumption). specialize (Lo w (conj Hw Fw)). nia.
Qed.
