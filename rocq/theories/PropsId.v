(** Property C19: identifiers are unique per context. *)
From Coq Require Import ZArith List Bool Lia.
From Verif Require Import HashModel IdModel IdSpec IdProofs.
Import ListNotations.
Open Scope Z_scope.

(** ** C19: every history of isl_id_alloc, isl_id_copy, isl_id_set_free_user and
    isl_id_free that only uses live identifiers behaves as specified in
    IdSpec: isl_id_alloc returns the live identifier for an equal pair if there
    is one and a new one otherwise, an identifier dies with its last reference
    and exactly then its callback is called.  In particular the lookups in the
    hash table never touch a dead identifier. *)
Theorem C19_identifiers_refine_interning :
  forall os, svalid os sinit ->
  exists rs s', iexec_all os iinit = Some (rs, s') /\ sruns os sinit rs (abs s').
Proof. exact refines. Qed.
Print Assumptions C19_identifiers_refine_interning.

(** at any time, two live identifiers are the same object iff they have the
    same name and user pointer *)
Theorem C19_identifiers_unique :
  forall os rs s, svalid os sinit -> iexec_all os iinit = Some (rs, s) ->
  forall a b i j, heap s a = Some i -> heap s b = Some j -> (nu i = nu j <-> a = b).
Proof. exact unique. Qed.
Print Assumptions C19_identifiers_unique.

(** isl_id_cmp is a total order on the live identifiers and NULL *)
Theorem C19_id_cmp_total_order :
  forall os rs s, svalid os sinit -> iexec_all os iinit = Some (rs, s) ->
  (forall a i, heap s a = Some i -> key_ok (nu i)) ->
  forall p q r,
    (forall a, p = Some a -> heap s a <> None) -> (forall a, q = Some a -> heap s a <> None) ->
    (forall a, r = Some a -> heap s a <> None) ->
  exists x y z x', id_cmp (heap s) p q = Some x /\ id_cmp (heap s) q r = Some y /\
    id_cmp (heap s) p r = Some z /\ id_cmp (heap s) q p = Some x' /\
    (x = 0 <-> p = q) /\ x' = - x /\ (x < 0 -> y < 0 -> z < 0).
Proof. exact cmp_reachable. Qed.
Print Assumptions C19_id_cmp_total_order.

(** the names "n" and "m" with user pointers 0 and 8, and no name; the table
    grows on the way, identifiers are freed and their addresses reused *)
Definition ex_n : nukey := (Some [110], 0).
Definition ex_m : nukey := (Some [109], 0).
Definition ex_n8 : nukey := (Some [110], 8).
Definition ex_u : nukey := (None, 8).
Definition ex_os : list iop :=
  [IAlloc ex_n (Some 1) true; IAlloc ex_m (Some 2) true; IAlloc ex_n (Some 3) true; IAlloc ex_n8 (Some 3) true;
   IAlloc ex_u (Some 4) true; ISetFree 1 77; IFree 1; IAlloc ex_n (Some 5) true; ICopy 4; IFree 1; IFree 1; IFree 3;
   IAlloc ex_n8 (Some 1) true]%nat.
Example C19_ex :
  svalid ex_os sinit /\
  match iexec_all ex_os iinit with
  | Some (rs, s) =>
    rs = [Some 1; Some 2; Some 1; Some 3; Some 4; Some 1; None; Some 1; Some 4; None; None; None; Some 1]%nat /\
    log s = [(77, 0)] /\
    option_map nu (heap s 1%nat) = Some ex_n8 /\ heap s 3%nat = None /\
    id_cmp (heap s) (Some 1%nat) (Some 2%nat) = Some 1 /\ id_cmp (heap s) (Some 4%nat) (Some 2%nat) = Some 1
  | None => False
  end.
Proof. split; [apply xvalid_init; vm_compute; reflexivity|]. vm_compute. repeat split; reflexivity. Qed.
(** all names of the example are strings of chars *)
Example C19_ex_keys :
  match iexec_all ex_os iinit with
  | Some (_, s) => forall a, (a < 6)%nat -> match heap s a with Some i => key_ok (nu i) | None => True end
  | None => False
  end.
Proof.
  vm_compute. intros a Ha. do 6 (destruct a as [|a]; [repeat constructor; intro; discriminate|]). exfalso. lia.
Qed.
