(** Specification of integer linear optimization. *)
From Coq Require Import ZArith List.
From Verif Require Import SeqSpec MatModel MatSpec BMapModel BMapSem LpModel LpSpec.
Import ListNotations.
Open Scope Z_scope.

(** the integer points of a basic set *)
Definition ipts (b : bmap) (p : list Z) : Prop := length p = (1 + nvar b)%nat /\ hd 0 p = 1 /\ points b p.
(** the result of an integer linear program *)
Definition ilp_spec (S : list Z -> Prop) (f : list Z) (max : bool) (o : lp) (sol : list Z) : Prop :=
  match o with
  | Lp_empty => forall q, ~ S q
  | Lp_unbounded => if max then unbounded_above S f else unbounded_below S f
  | Lp_ok v d => d = 1 /\ S sol /\ dot f sol = v /\ forall q, S q -> if max then dot f q <= v else v <= dot f q
  end.
(** the sets the functions are applied to: without parameters or local variables *)
Definition plain (b : bmap) : Prop := wf b /\ b_div b = [].
(** what is expected of isl_basic_set_sample_vec *)
Definition sampler (sample : bmap -> res (list Z)) : Prop := forall b, plain b ->
  match sample b with
  | Ok [] => forall q, ~ ipts b q
  | Ok s => ipts b s
  | _ => True
  end.
(** what is expected of isl_basic_set_remove_equalities: T maps the integer points
    of the result to those of the argument *)
Definition remover (remove_eq : bmap -> res (bmap * list (list Z))) : Prop := forall b c T, plain b -> remove_eq b = Ok (c, T) ->
  plain c /\ is_mat (1 + nvar b) (1 + nvar c) T /\
  (forall q, ipts c q -> ipts b (mat_vec_product (1 + nvar b) T q)) /\
  (forall p, ipts b p -> exists q, ipts c q /\ mat_vec_product (1 + nvar b) T q = p).
