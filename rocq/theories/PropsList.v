(** Properties of the lists (C16, C17, C18). *)
From Coq Require Import ZArith List Bool Lia Arith.
From Verif Require Import ListModel ListSpec ListProofs.
Import ListNotations.
Open Scope Z_scope.

(** C16: in every history of a client that respects the ownership annotations,
    no operation has undefined behaviour and everything the client observes is
    what it would observe if the lists were plain sequences. *)
Theorem C16_list_operations_refine_sequences : forall N os,
  Forall (cop_ok N) os -> fits os sinit ->
  exists c h, cexec_all os cinit [] = Some ((fst (sexec_all os sinit), c), h).
Proof. exact list_refine. Qed.
Print Assumptions C16_list_operations_refine_sequences.

(** C16, the exception: swapping a position outside of the list with itself is
    not rejected. *)
Theorem C16_swap_out_of_range_refuted : forall l pos h, list_swap l pos pos h = Some (l, h).
Proof. exact swap_same_position. Qed.
Print Assumptions C16_swap_out_of_range_refuted.

(** C17: an operation does not change what is observed through the registers
    it does not store to. *)
Theorem C17_value_semantics : forall N os o,
  Forall (cop_ok N) os -> fits os sinit -> cop_ok N o ->
  exists rs c h r c' h',
    cexec_all os cinit [] = Some ((rs, c), h) /\ cexec o c h = Some ((r, c'), h') /\
    (forall l, ~ In l (list_dests o) -> exists v,
       list_read (lists c l) h = Some (v, h) /\ list_read (lists c' l) h' = Some (v, h')) /\
    (forall e, ~ In e (el_dests o) -> exists v,
       el_read (els c e) h = Some (v, h) /\ el_read (els c' e) h' = Some (v, h')).
Proof. exact value_semantics. Qed.
Print Assumptions C17_value_semantics.

(** C18: after every history the allocated objects are exactly those reachable
    from the client's references. *)
Theorem C18_live_iff_referenced : forall N os,
  Forall (cop_ok N) os -> fits os sinit ->
  exists rs c h, cexec_all os cinit [] = Some ((rs, c), h) /\
    forall a, hget h a <> None <->
      (exists i, els c i = Some a \/ lists c i = Some a) \/
      (exists i l r s p, lists c i = Some l /\ hget h l = Some (OList r s p) /\ In (Some a) p).
Proof. exact live_referenced. Qed.
Print Assumptions C18_live_iff_referenced.

(** C18: once all references have been freed, nothing is left allocated. *)
Theorem C18_no_leaks : forall N os,
  Forall (cop_ok N) os -> fits os sinit ->
  exists rs c h, cexec_all (os ++ map CFree (seq 0 N) ++ map CElFree (seq 0 N)) cinit [] = Some ((rs, c), h) /\
    forall a, hget h a = None.
Proof. exact no_leaks. Qed.
Print Assumptions C18_no_leaks.

(** the hypotheses are met by a history that shares lists and elements *)
Definition ex_history : list cop :=
  [CElNew 0 7; CAlloc 0 1; CElCopy 1 0; CAdd 0 1; CCopy 1 0; CElNew 1 8; CAdd 1 1; CElNew 1 9; CInsert 1 0 1;
   CReverse 1; CMap (fun v => Some (v + 1)) 0; CCopy 2 1; CConcat 1 0; CSwap 2 0 2; CDrop 2 1 1; CGet 1 2 0;
   CRead 1; CRead 2; CElRead 1; CElRead 0; CSet 2 5 0; CRead 2].
Example C16_ex : Forall (cop_ok 3) ex_history /\ fits ex_history sinit /\
  fst (sexec_all (ex_history) sinit) =
  [NoObs; NoObs; NoObs; NoObs; NoObs; NoObs; NoObs; NoObs; NoObs; NoObs; NoObs; NoObs; NoObs; NoObs; NoObs; NoObs;
   ObsList (Some [8; 7; 9; 8]); ObsList (Some [9; 8]); ObsEl (Some 9); ObsEl (Some 7); NoObs; ObsList None].
Proof.
  assert (A : Forall (cop_ok 3) ex_history).
  { unfold ex_history.
    repeat (apply Forall_cons; [split; [cbn; intros; lia|cbn; unfold uint; lia]|]). apply Forall_nil. }
  split; [exact A|]. split; [|vm_compute; reflexivity].
  apply (fitsb_ok 3); [exact A|reflexivity|vm_compute; reflexivity].
Qed.
(** the same history run on the heap model: the lists are shared in between *)
Example C17_ex : exists c h, cexec_all (firstn 12 ex_history) cinit [] = Some ((repeat NoObs 12, c), h) /\
  lists c 1%nat = lists c 2%nat /\ lists c 1%nat <> None.
Proof. eexists _, _. split; [vm_compute; reflexivity|]. split; [reflexivity|discriminate]. Qed.
(** before the references are freed there is something allocated *)
Example C18_ex : exists rs c h, cexec_all ex_history cinit [] = Some ((rs, c), h) /\
  hget h 0%nat = Some (OEl 1 7) /\ length (filter (fun o => match o with Some _ => true | None => false end) h) = 5%nat.
Proof. eexists _, _, _. split; [vm_compute; reflexivity|]. vm_compute. auto. Qed.
Example C16_swap_ex : exists c h, cexec_all [CAlloc 0 1; CSwap 0 7 7; CSize 0] cinit [] = Some (([NoObs; NoObs; ObsSize 0], c), h).
Proof. eexists _, _. vm_compute. reflexivity. Qed.
