(** Further consequences that distinguish the code from small changes to it
    (C25, C26, C40, C43). *)
From Coq Require Import ZArith List Bool Arith Lia String.
From Verif Require Import SeqModel MatModel StreamModel BMapModel BDupModel BElimModel BElimProofs AstModel AstSpec AstValue CtxModel CtxProofs TightProofs2.
Import ListNotations.
Open Scope Z_scope.

(** isl_ctx_abort makes every operation fail until isl_ctx_resume *)
Theorem C43_abort c : ctx_aborted (ctx_abort (Some c)) = 1 /\ ctx_aborted (ctx_resume (ctx_abort (Some c))) = 0 /\
  (c_abort c = false -> ctx_resume (ctx_abort (Some c)) = Some c) /\
  exists c', next_operation (ctx_abort (Some c)) = CtxModel.Ret (Some c') (-1) /\ last_error (Some c') = Eabort /\ c_ops c' = c_ops c.
Proof. exact (abort_ok c). Qed.
Theorem C43_max_operations c m : get_max_operations (set_max_operations (Some c) m) = m /\ get_max_operations None = 0.
Proof. exact (max_ok c m). Qed.
(** references *)
Theorem C43_ref_deref c : 0 <= c_ref c < 2 ^ 31 - 1 ->
  exists c', ctx_ref c = CtxModel.Ret (Some c') tt /\ c_ref c' = c_ref c + 1 /\ ctx_deref c' = CtxModel.Ret (Some c) tt.
Proof. exact (ref_ok c). Qed.
Theorem C43_ref_overflow c : c_ref c = 2 ^ 31 - 1 -> ctx_ref c = CtxModel.UB.
Proof. exact (ref_overflow c). Qed.
(** a context is released iff there are no references to it *)
Theorem C43_free c : live c -> (exists o, c_opt c = Some o /\ o_on_error o <> OAbort) ->
  (c_ref c = 0 -> ctx_free (Some c) = CtxModel.Ret None true) /\
  (c_ref c <> 0 -> exists c', ctx_free (Some c) = CtxModel.Ret (Some c') false /\ c_error c' = Einvalid /\ c_ref c' = c_ref c).
Proof. exact (free_ok c). Qed.
Example C43_free_ex : let c := mkctx 1 (Some (mkopt OWarn 3)) Enone false 2 3 in live c /\ (exists o, c_opt c = Some o /\ o_on_error o <> OAbort) /\
  0 <= c_ref c < 2 ^ 31 - 1 /\ exists c', ctx_free (Some c) = CtxModel.Ret (Some c') false.
Proof. cbv zeta. split; [split; [eexists; reflexivity|cbn; lia]|]. split; [eexists; split; [reflexivity|discriminate]|]. split; [cbn; lia|]. eexists. reflexivity. Qed.

(** operators *)
Theorem C40_op_eqb a b : op_eqb a b = true <-> a = b.
Proof. exact (op_eqb_iff a b). Qed.
Theorem C40_is_and o : is_and o = true <-> o = op_and \/ o = op_and_then.
Proof. exact (is_and_iff o). Qed.
Theorem C40_is_or o : is_or o = true <-> o = op_or \/ o = op_or_else.
Proof. exact (is_or_iff o). Qed.
(** a conjunction or disjunction inside another one gets parentheses iff they are
    of different kinds or it is the second operand *)
Theorem C40_logic_parens o o' l left : is_and o || is_or o = true -> is_and o' || is_or o' = true ->
  sub_expr_need_parens o (EOp o' l) left = true <-> is_and o && is_or o' || is_or o && is_and o' || negb left = true.
Proof. exact (logic_parens o o' l left). Qed.
Example C40_logic_ex : print_ast_expr_c no_names (EOp op_and [EOp op_and [ex_x; ex_y]; EOp op_or [ex_x; EOp op_and_then [ex_x; ex_y]]]) =
  Ok (codes "x && y && (x || (x && y))").
Proof. vm_compute. reflexivity. Qed.
(** the wrong number of operands is reported as an error *)
Example C40_arity_ex : print_ast_expr_c no_names (EOp op_and [EOp op_add [ex_x; ex_y; ex_x]; ex_y]) = Null.
Proof. vm_compute. reflexivity. Qed.

(** which constraints are used to define an integer division *)
Theorem C25_better_div_constraint b div ineq : let d := nth div (b_div b) [] in let r := nth ineq (b_ineq b) [] in let o := (1 + nvar b + div)%nat in
  better_div_constraint b div ineq = true <->
  hd 0 d = 0 \/ (forall k, (o < k)%nat -> nth k r 0 = 0) /\ exists k, nth k (tl d) 0 <> 0 /\ forall j, (k <= j < o)%nat -> nth j r 0 = 0.
Proof. exact (better_ok b div ineq). Qed.
Theorem C25_ok_to_set_div_from_bound b div ineq : ok_to_set_div_from_bound b div ineq = true <->
  forall j, (j < ndiv b)%nat -> j <> div ->
    (nth (1 + nvar b + j) (nth ineq (b_ineq b) []) 0 = 0 \/ hd 0 (nth j (b_div b) []) <> 0) /\
    (hd 0 (nth j (b_div b) []) = 0 \/ nth (2 + nvar b + div) (nth j (b_div b) []) 0 = 0).
Proof. exact (ok_to_set_ok b div ineq). Qed.
(** floor(x / 2) in terms of an earlier variable: the second definition is better *)
Example C25_better_ex : let b := mkb 0 0 2 [] [[0; 1; 0; -2]; [1; -1; 0; 2]] [[2; 0; 0; 1; 0]] false false false in
  better_div_constraint b 0 0 = true /\ ok_to_set_div_from_bound b 0 0 = true.
Proof. split; reflexivity. Qed.

(** without upper bounds the remaining constraints are left alone *)
Example C26_one_sided_ex : eliminate_vars (fun _ => O) (fun _ => false) (fun _ => (false, [])) (mkb 0 0 2 [] [[0; 1; 0]; [0; 0; 2]] [] false false false) 0 1 =
  Ok (mkb 0 0 2 [] [[0; 0; 2]] [] false false false).
Proof. reflexivity. Qed.

Print Assumptions C43_abort.
Print Assumptions C43_max_operations.
Print Assumptions C43_ref_deref.
Print Assumptions C43_ref_overflow.
Print Assumptions C43_free.
Print Assumptions C40_op_eqb.
Print Assumptions C40_is_and.
Print Assumptions C40_is_or.
Print Assumptions C40_logic_parens.
Print Assumptions C25_better_div_constraint.
Print Assumptions C25_ok_to_set_div_from_bound.
