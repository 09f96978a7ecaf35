(** Property C12 of the hash table. *)
From Coq Require Import ZArith List Bool Lia.
From Verif Require Import HashModel HashSpec HashProofs.
Import ListNotations.
Open Scope Z_scope.

(** ** C12: every history of lookups, insertions (find with reserve), removals
    and traversals on a freshly initialised table returns what a finite map
    would return.  The data type, the keys, the equality test and the 32-bit
    hash function are arbitrary (all keys may collide).  In particular no
    probe loop runs forever, no undefined behaviour occurs, and NULL is only
    returned if an allocation fails, in which case the contents are intact. *)
Theorem C12_hash_table_is_a_map :
  forall (K D : Type) (key : D -> K) (keqb : K -> K -> bool) (hashf : K -> Z),
  (forall a b, keqb a b = true <-> a = b) ->
  (forall k, 0 <= hashf k < 2 ^ 32) ->
  forall min_size os, min_size < 2 ^ 28 -> inserts os < 2 ^ 29 ->
  exists rs t M, hexec_all key keqb hashf os (table_init min_size) = (rs, t) /\
    steps key (fun _ => None) os rs M.
Proof. intros K D key keqb hashf H1 H2 m os. exact (history_ok key keqb hashf H1 H2 m os). Qed.
Print Assumptions C12_hash_table_is_a_map.

(** foreach calls the callback on each datum in turn and stops at the first error *)
Theorem C12_hash_foreach_stops_on_error :
  forall (D S : Type) (t : table D) (fn : D -> S -> option S) s,
  foreach_loop (ents t) fn s =
  fold_left (fun o d => match o with Some s => fn d s | None => None end) (foreach_list t) (Some s).
Proof. intros D S. exact foreach_loop_ok. Qed.
Print Assumptions C12_hash_foreach_stops_on_error.

(** keys that all collide: five insertions (forcing the table to grow), a
    removal from the middle of the probe sequence, lookups *)
Definition ex_ops : list (hop Z (Z * Z)) :=
  [OInsert (1, 10) true; OInsert (2, 20) true; OInsert (3, 30) true; OInsert (2, 99) true;
   OInsert (4, 40) true; OInsert (5, 50) true; ORemove 2; OFind 5; OFind 2; OInsert (6, 60) true; OForeach].
Example C12_ex :
  fst (hexec_all fst Z.eqb (fun _ => 7) ex_ops (table_init 0)) =
    [RData (Some (1, 10)); RData (Some (2, 20)); RData (Some (3, 30)); RData (Some (2, 20));
     RData (Some (4, 40)); RData (Some (5, 50)); RData (Some (2, 20)); RData (Some (5, 50)); RData None;
     RData (Some (6, 60)); RList [(1, 10); (4, 40); (5, 50); (6, 60); (3, 30)]]
  /\ inserts ex_ops < 2 ^ 29.
Proof. split; [vm_compute; reflexivity|cbn; lia]. Qed.

(** if the table cannot grow, the insertion fails and nothing is lost *)
Example C12_ex_oom :
  fst (hexec_all fst Z.eqb (fun k => k)
     [OInsert (1, 10) true; OInsert (2, 20) true; OInsert (3, 30) true; OInsert (4, 40) false; OFind 3] (table_init 0)) =
    [RData (Some (1, 10)); RData (Some (2, 20)); RData (Some (3, 30)); RNull; RData (Some (3, 30))].
Proof. vm_compute. reflexivity. Qed.
