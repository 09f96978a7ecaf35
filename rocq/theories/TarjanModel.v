(** Model of isl_tarjan.c: Tarjan's algorithm for strongly connected components.

    Nodes are natural numbers.  The arrays of struct isl_tarjan_graph are
    functions; the contents of freshly allocated arrays are arbitrary.  Writing
    beyond the end of an array is undefined behaviour ([None]), as is running
    out of fuel.  Allocation is assumed to succeed. *)
From Coq Require Import ZArith List Bool Arith.
Import ListNotations.
Open Scope Z_scope.

(** struct isl_tarjan_node, isl_tarjan.h:10-14 and struct isl_tarjan_graph,
    isl_tarjan.h:26-34.  [stack] has its top first ([sp] is its length), [op] is
    the length of [order].  [errs] is a ghost: the recursion depths at which the
    callback reported an error. *)
Record graph := mkg {
  nidx : nat -> Z; nmin : nat -> Z; non : nat -> bool;
  stack : list nat; gindex : Z; order : list Z; errs : list nat
}.
(** assignment to an array element *)
Definition upd {A} (f : nat -> A) (i : nat) (a : A) : nat -> A := fun j => if Nat.eqb j i then a else f j.

Definition set_min (g : graph) (i : nat) (m : Z) : graph :=
  mkg (nidx g) (upd (nmin g) i m) (non g) (stack g) (gindex g) (order g) (errs g).
Definition add_err (g : graph) (depth : nat) : graph :=
  mkg (nidx g) (nmin g) (non g) (stack g) (gindex g) (order g) (depth :: errs g).

Section Tarjan.
(** g->len *)
Variable len : nat.
(** the callback; [None] is isl_bool_error *)
Variable follows : nat -> nat -> option bool.

(** isl_tarjan_components, isl_tarjan.c:67-71 *)
Definition enter (g : graph) (i : nat) : option graph :=
  if (length (stack g) <? len)%nat then
    Some (mkg (upd (nidx g) i (gindex g)) (upd (nmin g) i (gindex g)) (upd (non g) i true)
              (i :: stack g) (gindex g + 1) (order g) (errs g))
  else None.

(** isl_tarjan_components, isl_tarjan.c:73-95, for the values [js] of j;
    [rec] is the recursive call, whose return value is ignored *)
Fixpoint comp_loop (rec : graph -> nat -> option (bool * graph)) (depth : nat) (i : nat) (js : list nat)
    (g : graph) : option (bool * graph) :=
  match js with
  | [] => Some (true, g)
  | j :: js' =>
    if (j =? i)%nat then comp_loop rec depth i js' g
    else if (0 <=? nidx g j) && (negb (non g j) || (nmin g i <? nidx g j)) then comp_loop rec depth i js' g
    else match follows i j with
         | None => Some (false, add_err g depth)
         | Some false => comp_loop rec depth i js' g
         | Some true =>
           if nidx g j <? 0 then
             match rec g j with
             | None => None
             | Some (_, g') =>
               comp_loop rec depth i js' (if nmin g' j <? nmin g' i then set_min g' i (nmin g' j) else g')
             end
           else comp_loop rec depth i js' (if nidx g j <? nmin g i then set_min g i (nidx g j) else g)
         end
  end.

(** isl_tarjan_components, isl_tarjan.c:100-105; the do-while loop that pops
    the component from the stack, and the terminating -1 *)
Fixpoint pop (stk : list nat) (i : nat) (g : graph) : option graph :=
  match stk with
  | [] => None
  | j :: stk' =>
    if (length (order g) <? 2 * len)%nat then
      let g' := mkg (nidx g) (nmin g) (upd (non g) j false) stk' (gindex g) (order g ++ [Z.of_nat j]) (errs g) in
      if (j =? i)%nat then
        if (length (order g') <? 2 * len)%nat then
          Some (mkg (nidx g') (nmin g') (non g') stk' (gindex g') (order g' ++ [-1]) (errs g'))
        else None
      else pop stk' i g'
    else None
  end.

(** isl_tarjan_components, isl_tarjan.c:62-108; the result is the return
    status and the new state of the graph *)
Fixpoint components (fuel depth : nat) (g : graph) (i : nat) : option (bool * graph) :=
  match fuel with
  | O => None
  | S f =>
    match enter g i with
    | None => None
    | Some g =>
      match comp_loop (components f (S depth)) depth i (rev (seq 0 len)) g with
      | None => None
      | Some (false, g) => Some (false, g)
      | Some (true, g) =>
        if negb (nidx g i =? nmin g i) then Some (true, g)
        else match pop (stack g) i g with None => None | Some g => Some (true, g) end
      end
    end
  end.

(** isl_tarjan_graph_alloc, isl_tarjan.c:28-57; [m0] and [o0] are the
    uninitialised contents of the min_index and on_stack fields *)
Definition graph_alloc (m0 : nat -> Z) (o0 : nat -> bool) : graph :=
  mkg (fun _ => -1) m0 o0 [] 0 [] [].

(** the loop of isl_tarjan_graph_init, isl_tarjan.c:128-133 *)
Fixpoint init_loop (is : list nat) (g : graph) : option (bool * graph) :=
  match is with
  | [] => Some (true, g)
  | i :: is' =>
    if 0 <=? nidx g i then init_loop is' g
    else match components (S len) 1 g i with
         | None => None
         | Some (false, g) => Some (false, g)
         | Some (true, g) => init_loop is' g
         end
  end.
(** isl_tarjan_graph_init, isl_tarjan.c:119-136; status [false] means that NULL
    is returned *)
Definition graph_init m0 o0 : option (bool * graph) := init_loop (rev (seq 0 len)) (graph_alloc m0 o0).
(** isl_tarjan_graph_component, isl_tarjan.c:147-159 *)
Definition graph_component m0 o0 (node : nat) : option (bool * graph) :=
  components (S len) 1 (graph_alloc m0 o0) node.
End Tarjan.
