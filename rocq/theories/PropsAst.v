(** C40: the C text printed for an AST expression. *)
From Coq Require Import ZArith List Bool String.
From Verif Require Import MatModel StreamModel AstModel AstSpec AstParse AstLex AstProofs AstValue.
Import ListNotations.
Local Open Scope string_scope.
Local Open Scope list_scope.
Local Open Scope Z_scope.

(** The text of a printable expression is read by C as the tree that the
    expression denotes, and as no other tree. *)
Theorem C40_parse_back : forall nm e, names_ok nm -> printable e = true ->
  exists s t, print_ast_expr_c nm e = Ok s /\ tree_of nm e = Some t /\ reads_as s t /\
    forall t', reads_as s t' -> t' = t.
Proof. exact print_reads_as. Qed.

(** The generated text computes the documented value. *)
Theorem C40_value : forall nm env fn e v,
  names_ok nm -> functions_ok nm fn -> printable e = true -> value env e = Some v ->
  exists s, print_ast_expr_c nm e = Ok s /\ forall t, reads_as s t -> cval env fn t = Some v.
Proof. exact print_value. Qed.

(** The grammar gives at most one tree to any text. *)
Theorem C40_unambiguous : forall s t t', reads_as s t -> reads_as s t' -> t = t'.
Proof. exact reads_as_unique. Qed.

(** The macros printed along compute minimum, maximum and floor division
    (for a positive divisor). *)
Theorem C40_macro_min : forall fn a b t, reads_as (macro_body op_min) t ->
  cval (env2 "x" a "y" b) fn t = Some (Z.min a b).
Proof. exact macro_min_val. Qed.
Theorem C40_macro_max : forall fn a b t, reads_as (macro_body op_max) t ->
  cval (env2 "x" a "y" b) fn t = Some (Z.max a b).
Proof. exact macro_max_val. Qed.
Theorem C40_macro_fdiv : forall fn a b, 0 < b -> forall t, reads_as (macro_body op_fdiv_q) t ->
  cval (env2 "n" a "d" b) fn t = Some (a / b).
Proof. exact macro_fdiv_val. Qed.
Theorem C40_macros_read : forall o, In o [op_min; op_max; op_fdiv_q] -> exists t, reads_as (macro_body o) t.
Proof. exact macros_read. Qed.

(** Without the restrictions of [printable] the property is false: the negation
    of a negation (isl_ast_expr_neg applied twice) is printed as a decrement, *)
Theorem C40_minus_minus_refuted : exists s t,
  print_ast_expr_c no_names (EOp op_minus [EOp op_minus [ex_x]]) = Ok s /\
  reads_as s (CUn (codes "--") (CId (codes "x"))) /\
  tree_of no_names (EOp op_minus [EOp op_minus [ex_x]]) = Some t /\ ~ reads_as s t.
Proof. exact minus_minus_bad. Qed.
(** a conditional as condition of another changes the value, *)
Theorem C40_cond_cond_refuted : exists s t t',
  let e := EOp op_cond [EOp op_cond [ex_x; EInt 0; EInt 1]; EInt 2; EInt 3] in
  print_ast_expr_c no_names e = Ok s /\ tree_of no_names e = Some t /\ reads_as s t' /\ ~ reads_as s t /\
  value (fun _ => 1) e = Some 3 /\ cval (fun _ => 1) (fun _ _ => None) t' = Some 0.
Proof. exact cond_cond_bad. Qed.
(** and the array of an access (isl_ast_expr_access) is never parenthesized. *)
Theorem C40_access_refuted : exists s t,
  let e := EOp op_access [EOp op_add [ex_x; ex_y]; EInt 0] in
  print_ast_expr_c no_names e = Ok s /\ tree_of no_names e = Some t /\ ~ reads_as s t.
Proof. exact access_bad. Qed.

(** ** Examples *)

Definition ex_e1 : expr :=
  EOp op_sub [EOp op_minus [EOp op_add [ex_x; EInt (-5)]];
              EOp op_sub [EOp op_pdiv_r [ex_x; EInt 3];
                          EOp op_max [EInt 2; ex_y; EOp op_cond [EOp op_and [ex_x; EOp op_or [ex_y; ex_x]]; EInt 1; ex_y]]]].
Example C40_parse_back_ex : names_ok no_names /\ printable ex_e1 = true /\
  print_ast_expr_c no_names ex_e1 = Ok (codes "-(x + -5) - ((x % 3) - max(max(2, y), x && (y || x) ? 1 : y))").
Proof. split; [intros o s H; discriminate|]. split; vm_compute; reflexivity. Qed.

Definition ex_e2 : expr :=
  EOp op_address_of [EOp op_access [EOp op_member [EOp op_access [EId (codes "A"); EOp op_fdiv_q [ex_x; EInt 2]]; EId (codes "f")];
     EOp op_call [EId (codes "g"); ex_x; EInt (-1)]; EInt 0]].
Example C40_parse_back_ex2 : printable ex_e2 = true /\
  print_ast_expr_c no_names ex_e2 = Ok (codes "&A[floord(x, 2)].f[g(x, -1)][0]").
Proof. split; vm_compute; reflexivity. Qed.

(** functions renamed by the user *)
Definition ex_names : names := fun o => match o with op_max => Some (codes "isl_max") | _ => None end.
Example C40_names_ex : names_ok ex_names /\
  print_ast_expr_c ex_names (EOp op_max [ex_x; ex_y]) = Ok (codes "isl_max(x, y)").
Proof.
  split; [|reflexivity]. intros o s H. destruct o; try discriminate. injection H as <-. split; [auto|reflexivity].
Qed.

Definition ex_fn (f : list Z) (vs : list Z) : option Z :=
  match vs with
  | [a; b] => if eqs f (codes "max") then Some (Z.max a b) else if eqs f (codes "min") then Some (Z.min a b)
              else if eqs f (codes "floord") then Some (a / b) else None
  | _ => None
  end.
Example C40_value_ex : functions_ok no_names ex_fn /\ printable ex_e1 = true /\
  value (fun x => if eqs x (codes "x") then 7 else 4) ex_e1 = Some 1.
Proof. split; [split; [|split]; intros; reflexivity|]. split; vm_compute; reflexivity. Qed.

Example C40_unambiguous_ex : reads_as (codes "a - b - -c") (CBin (codes "-")
  (CBin (codes "-") (CId (codes "a")) (CId (codes "b"))) (CUn (codes "-") (CId (codes "c")))).
Proof. exact unamb_ex. Qed.

Example C40_macro_ex : exists t, reads_as (macro_body op_fdiv_q) t /\
  cval (env2 "n" (-7) "d" 2) (fun _ _ => None) t = Some (-4).
Proof. exists tree_fdiv. split; [exact (proj1 macro_fdiv_tree)|reflexivity]. Qed.
Example C40_macros_read_ex : In op_min [op_min; op_max; op_fdiv_q].
Proof. left. reflexivity. Qed.
Example C40_macro_min_ex : exists t, reads_as (macro_body op_min) t /\
  cval (env2 "x" 3 "y" (-2)) (fun _ _ => None) t = Some (-2).
Proof. exists tree_min. split; [exact (proj1 macro_min_tree)|reflexivity]. Qed.
Example C40_macro_max_ex : exists t, reads_as (macro_body op_max) t /\
  cval (env2 "x" 3 "y" (-2)) (fun _ _ => None) t = Some 3.
Proof. exists tree_max. split; [exact (proj1 macro_max_tree)|reflexivity]. Qed.

Print Assumptions C40_parse_back.
Print Assumptions C40_value.
Print Assumptions C40_unambiguous.
Print Assumptions C40_macro_min.
Print Assumptions C40_macro_max.
Print Assumptions C40_macro_fdiv.
Print Assumptions C40_macros_read.
Print Assumptions C40_minus_minus_refuted.
Print Assumptions C40_cond_cond_refuted.
Print Assumptions C40_access_refuted.
