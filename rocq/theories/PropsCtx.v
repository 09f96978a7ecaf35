(** Properties of the operation limit of a context (C43). *)
From Coq Require Import ZArith List Bool Lia.
From Verif Require Import CtxModel CtxProofs.
Import ListNotations.
Open Scope Z_scope.

(** isl_ctx_next_operation allows the operation iff the computation has not
    been aborted and the limit, if any, has not been reached *)
Theorem C43_next c c' r : live c -> next_operation (Some c) = Ret (Some c') r ->
  (r = 0 /\ c_abort c = false /\ (c_max c = 0 \/ c_ops c < c_max c) /\ c' = with_ops c ((c_ops c + 1) mod 2 ^ 64)) \/
  (r = -1 /\ c_abort c = true /\ c' = with_error c Eabort) \/
  (r = -1 /\ c_abort c = false /\ 0 < c_max c <= c_ops c /\ c' = with_error c Equota).
Proof. exact (next_cases c c' r). Qed.
(** C43: in a history without change of the limit, the number of allowed
    operations since the last reset is at most the limit *)
Theorem C43_limit c l1 l2 c' h : live c -> 0 < c_max c -> Forall no_set (l1 ++ l2) -> Forall no_reset l2 -> history c (l1 ++ l2) = Some (c', h) ->
  Z.of_nat (count (skipn (length l1) h)) <= c_max c.
Proof. exact (segment_ok c l1 l2 c' h). Qed.
Theorem C43_remaining c l c' h : live c -> 0 < c_max c -> Forall no_reset l -> Forall no_set l -> history c l = Some (c', h) ->
  Z.of_nat (count h) <= Z.max 0 (c_max c - c_ops c) /\ c_max c' = c_max c.
Proof. exact (limit_ok l c c' h). Qed.
(** C43: once the limit has been reached, every operation fails with the quota
    error (or the abort error if the user has also asked to abort) *)
Theorem C43_refuse c l c' h : live c -> 0 < c_max c <= c_ops c -> Forall no_reset l -> Forall no_set l -> history c l = Some (c', h) ->
  Forall (fun e => operation (fst (fst e)) -> granted e = false /\ (snd e = Equota \/ snd e = Eabort)) h /\ c_ops c' = c_ops c.
Proof. exact (refuse_ok l c c' h). Qed.
(** C43: a computation that stops at the first failing operation succeeds iff
    all its operations fit; otherwise it fails with the quota error *)
Theorem C43_computation n c c' r : live c -> c_abort c = false -> 0 < c_max c -> compute n c = Ret c' r ->
  (r = true <-> Z.of_nat n <= Z.max 0 (c_max c - c_ops c)) /\ (r = false -> last_error c' = Equota).
Proof. exact (compute_ok n c c' r). Qed.
(** a new context has a fresh counter and the limit from the options *)
Theorem C43_alloc opt : 0 <= o_max opt < 2 ^ 64 ->
  exists c, ctx_alloc opt true true true = Ret (Some c) tt /\ live c /\ c_ops c = 0 /\ c_max c = o_max opt /\ c_ref c = 0 /\ c_error c = Enone /\ c_abort c = false.
Proof. exact (alloc_ok opt). Qed.
(** when calloc fails inside isl_ctx_alloc_with_options, the error is reported
    through ctx->opt, which has not been set yet *)
Theorem C43_alloc_failure_refuted opt p : ctx_alloc opt true false p = UB /\ ctx_alloc opt true true false = UB.
Proof. split; reflexivity. Qed.

Definition ex_c : ctx := mkctx 0 (Some (mkopt OWarn 2)) Enone false 0 2.
Example ex_c_live : live ex_c. Proof. split; [eexists; reflexivity|]. cbv. repeat split; discriminate. Qed.
Example ex_c_history : history ex_c [CNext; CMalloc true 8; CMalloc true 8; CResetOps; CNext; CMalloc false 8; CNext] =
  Some (mkctx 0 (Some (mkopt OWarn 2)) Equota false 2 2,
   [(CNext, Some 0, Enone); (CMalloc true 8, Some 1, Enone); (CMalloc true 8, Some 0, Equota); (CResetOps, None, Equota);
    (CNext, Some 0, Equota); (CMalloc false 8, Some 0, Ealloc); (CNext, Some (-1), Equota)]).
Proof. reflexivity. Qed.
Example ex_c_compute : compute 2 ex_c = Ret (Some (with_ops ex_c 2)) true /\ exists c, compute 3 ex_c = Ret (Some c) false.
Proof. split; [reflexivity|eexists; reflexivity]. Qed.
Example ex_c_abort : history (mkctx 0 (Some (mkopt OAbort 1)) Enone false 1 1) [CNext] = None.
Proof. reflexivity. Qed.

Print Assumptions C43_next.
Print Assumptions C43_limit.
Print Assumptions C43_remaining.
Print Assumptions C43_refuse.
Print Assumptions C43_computation.
Print Assumptions C43_alloc.
Print Assumptions C43_alloc_failure_refuted.
