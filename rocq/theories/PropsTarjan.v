(** Properties C14 and C15 of isl_tarjan. *)
From Coq Require Import ZArith List Bool Lia Arith Relations.
From Verif Require Import TarjanModel TarjanSpec TarjanProofs.
Import ListNotations.
Open Scope Z_scope.

(** ** C14: for every graph, isl_tarjan_graph_init succeeds without leaving the
    bounds of its arrays and lists all nodes exactly once, grouped in strongly
    connected components, in topological order.  [m0] and [o0] are the
    uninitialised contents of the freshly allocated nodes. *)
Theorem C14_tarjan_graph_init :
  forall len follows, (forall i j, (i < len)%nat -> (j < len)%nat -> follows i j <> None) ->
  forall m0 o0, exists g cs,
    graph_init len follows m0 o0 = Some (true, g) /\ order g = encode cs /\
    decomposition len follows cs /\ forall i, In i (concat cs) <-> (i < len)%nat.
Proof. exact graph_init_ok. Qed.
Print Assumptions C14_tarjan_graph_init.

(** isl_tarjan_graph_component lists the components that can be reached from
    the given node, the one that contains the node being last *)
Theorem C14_tarjan_graph_component :
  forall len follows, (forall i j, (i < len)%nat -> (j < len)%nat -> follows i j <> None) ->
  forall m0 o0 node, (node < len)%nat -> exists g cs c,
    graph_component len follows m0 o0 node = Some (true, g) /\ order g = encode (cs ++ [c]) /\
    decomposition len follows (cs ++ [c]) /\ In node c /\
    forall i, In i (concat (cs ++ [c])) <-> reach len follows node i.
Proof. exact graph_component_ok. Qed.
Print Assumptions C14_tarjan_graph_component.

(** a graph with two non-trivial components: 0 <-> 1 -> 2 <-> 3, and 4 -> 0 *)
Definition ex_follows (i j : nat) : option bool :=
  Some (existsb (fun e => (fst e =? i)%nat && (snd e =? j)%nat) [(0, 1); (1, 0); (1, 2); (2, 3); (3, 2); (4, 0)]%nat).
Example C14_ex :
  (forall i j, ex_follows i j <> None) /\
  option_map (fun r => (fst r, order (snd r))) (graph_init 5 ex_follows (fun _ => 77) (fun _ => true)) =
    Some (true, encode [[3; 2]; [1; 0]; [4]]%nat) /\
  option_map (fun r => (fst r, order (snd r))) (graph_component 5 ex_follows (fun _ => 77) (fun _ => true) 1) =
    Some (true, encode [[3; 2]; [0; 1]]%nat).
Proof. split; [discriminate|]. split; vm_compute; reflexivity. Qed.

(** ** C15 is false: an error reported during a recursive call is ignored (the
    status of the recursive call is dropped at isl_tarjan.c:90), and the
    decomposition is returned as if nothing happened *)
Definition C15_statement : Prop :=
  forall len follows m0 o0 b g,
  graph_init len follows m0 o0 = Some (b, g) -> errs g <> [] -> b = false.
Theorem C15_tarjan_error_refuted : ~ C15_statement.
Proof.
  intros H.
  specialize (H 2%nat (fun i j => if (i =? 1)%nat then Some true else None) (fun _ => 0) (fun _ => false)).
  specialize (H _ _ eq_refl). vm_compute in H. discriminate H. discriminate.
Qed.
Print Assumptions C15_tarjan_error_refuted.

(** what holds: the decomposition fails iff an error was reported to one of the
    outermost calls (recursion depth 1) *)
Theorem C15_tarjan_error_partial :
  forall len follows m0 o0 b g, graph_init len follows m0 o0 = Some (b, g) ->
  (b = false <-> In 1%nat (errs g)).
Proof. exact graph_init_top_error. Qed.
Print Assumptions C15_tarjan_error_partial.

(** an error at depth 1, in the second of two components *)
Example C15_ex :
  option_map (fun r => (fst r, errs (snd r)))
    (graph_init 3 (fun i j => if (i =? 0)%nat then None else Some (negb (j =? 0)%nat)) (fun _ => 0) (fun _ => false)) =
    Some (true, []) /\
  option_map (fun r => (fst r, errs (snd r)))
    (graph_init 3 (fun i j => if (i =? 1)%nat && (j =? 0)%nat then None else Some false) (fun _ => 0) (fun _ => false)) =
    Some (false, [1%nat]).
Proof. split; vm_compute; reflexivity. Qed.
