(** Model of the printing of AST expressions in C format (isl_ast.c).

    A string is the list of its character codes.  Printing to an isl_printer
    is modelled as the text that is appended to the output (printing to a
    string, no prefix, suffix or indentation inside an expression).
    Failure of the printer is [Null]; reading an argument beyond the arguments
    of the operation is [UB]. *)
From Coq Require Import ZArith List Bool String.
From Verif Require Import MatModel StreamModel.
Import ListNotations.
Local Open Scope Z_scope.

(** sequencing: the rest is only executed if the first part succeeds *)
Definition bind {A B} (m : res A) (k : A -> res B) : res B :=
  match m with Ok a => k a | Null => Null | UB => UB | Div => Div end.

(** enum isl_ast_expr_op_type, include/isl/ast_type.h:16-44 *)
Inductive op :=
| op_and | op_and_then | op_or | op_or_else | op_max | op_min | op_minus
| op_add | op_sub | op_mul | op_div | op_fdiv_q | op_pdiv_q | op_pdiv_r | op_zdiv_r
| op_cond | op_select | op_eq | op_le | op_lt | op_ge | op_gt
| op_call | op_access | op_member | op_address_of.

(** position in the enumeration, include/isl/ast_type.h:16-44 *)
Definition op_num (o : op) : nat :=
  match o with
  | op_and => 0 | op_and_then => 1 | op_or => 2 | op_or_else => 3 | op_max => 4 | op_min => 5
  | op_minus => 6 | op_add => 7 | op_sub => 8 | op_mul => 9 | op_div => 10 | op_fdiv_q => 11
  | op_pdiv_q => 12 | op_pdiv_r => 13 | op_zdiv_r => 14 | op_cond => 15 | op_select => 16
  | op_eq => 17 | op_le => 18 | op_lt => 19 | op_ge => 20 | op_gt => 21 | op_call => 22
  | op_access => 23 | op_member => 24 | op_address_of => 25
  end.
Definition op_eqb (a b : op) : bool := Nat.eqb (op_num a) (op_num b).

(** struct isl_ast_expr, isl_ast_private.h:14-30; an integer expression holds
    an integral value (isl_ast_expr_from_val, isl_ast.c:491-517), an
    identifier is represented by its name *)
Inductive expr :=
| EErr
| EOp (o : op) (args : list expr)
| EId (name : list Z)
| EInt (v : Z).

(** op_str_c, isl_ast.c:1508-1531; the entries that are not initialized
    explicitly are NULL *)
Definition op_str_c (o : op) : list Z :=
  match o with
  | op_and => codes "&&" | op_and_then => codes "&&"
  | op_or => codes "||" | op_or_else => codes "||"
  | op_max => codes "max" | op_min => codes "min" | op_minus => codes "-"
  | op_add => codes "+" | op_sub => codes "-" | op_mul => codes "*"
  | op_fdiv_q => codes "floord" | op_pdiv_q => codes "/" | op_pdiv_r => codes "%"
  | op_zdiv_r => codes "%" | op_div => codes "/" | op_eq => codes "=="
  | op_le => codes "<=" | op_ge => codes ">=" | op_lt => codes "<" | op_gt => codes ">"
  | op_member => codes "." | op_address_of => codes "&"
  | op_cond | op_select | op_call | op_access => []
  end.

(** op_prec, isl_ast.c:1537-1564 *)
Definition op_prec (o : op) : nat :=
  match o with
  | op_and => 13 | op_and_then => 13 | op_or => 14 | op_or_else => 14 | op_max => 2 | op_min => 2
  | op_minus => 3 | op_add => 6 | op_sub => 6 | op_mul => 5 | op_div => 5 | op_fdiv_q => 2
  | op_pdiv_q => 5 | op_pdiv_r => 5 | op_zdiv_r => 5 | op_cond => 15 | op_select => 15
  | op_eq => 9 | op_le => 8 | op_ge => 8 | op_lt => 8 | op_gt => 8 | op_call => 2
  | op_access => 2 | op_member => 2 | op_address_of => 3
  end.

(** op_left, isl_ast.c:1568-1595 *)
Definition op_left (o : op) : bool :=
  match o with
  | op_minus | op_cond | op_select | op_address_of => false
  | _ => true
  end.

(** is_and, isl_ast.c:1597-1600; is_or, isl_ast.c:1602-1605;
    is_add_sub, isl_ast.c:1607-1610; is_div_mod, isl_ast.c:1612-1617 *)
Definition is_and (o : op) : bool := op_eqb o op_and || op_eqb o op_and_then.
Definition is_or (o : op) : bool := op_eqb o op_or || op_eqb o op_or_else.
Definition is_add_sub (o : op) : bool := op_eqb o op_add || op_eqb o op_sub.
Definition is_div_mod (o : op) : bool := op_eqb o op_div || op_eqb o op_pdiv_r || op_eqb o op_zdiv_r.

(** sub_expr_need_parens, isl_ast.c:1640-1660 *)
Definition sub_expr_need_parens (o : op) (e : expr) (left : bool) : bool :=
  match e with
  | EOp o' _ =>
      if Nat.ltb (op_prec o) (op_prec o') then true
      else if Nat.eqb (op_prec o') (op_prec o) && negb (Bool.eqb left (op_left o)) then true
      else if is_or o && is_and o' then true
      else if op_eqb o op_mul && negb (op_eqb o' op_mul) && Nat.eqb (op_prec o') (op_prec o) then true
      else is_add_sub o && is_div_mod o'
  | _ => false
  end.

(** the names set by the user, struct isl_ast_expr_op_names, isl_ast.c:1692-1694 *)
Definition names := op -> option (list Z).

(** get_op_str_c, isl_ast.c:1829-1844 *)
Definition get_op_str_c (nm : names) (o : op) : list Z :=
  match nm o with Some s => s | None => op_str_c o end.

(** the argument at position [pos] has been printed as [ps[pos]]:
    print_sub_expr_c, isl_ast.c:1666-1684 *)
Definition print_sub_expr_c (o : op) (args : list expr) (ps : list (res (list Z))) (pos : nat)
    (left : bool) : res (list Z) :=
  match nth_error args pos, nth_error ps pos with
  | Some arg, Some p =>
      let need_parens := sub_expr_need_parens o arg left in
      bind p (fun s => Ok (if need_parens then codes "(" ++ s ++ codes ")" else s))
  | _, _ => UB
  end.

(** the loops of print_min_max_c, isl_ast.c:1848-1865, print_call_c,
    isl_ast.c:1878-1882, and print_access_c, isl_ast.c:1898-1902: print the
    remaining arguments, each between [before] and [after] *)
Fixpoint print_rest (before after : list Z) (ps : list (res (list Z))) : res (list Z) :=
  match ps with
  | [] => Ok []
  | p :: ps => bind p (fun s => bind (print_rest before after ps) (fun t => Ok (before ++ s ++ after ++ t)))
  end.

Fixpoint repeat_str (n : nat) (s : list Z) : list Z :=
  match n with O => [] | S n => s ++ repeat_str n s end.

(** print_min_max_c, isl_ast.c:1848-1865 *)
Definition print_min_max_c (name : list Z) (ps : list (res (list Z))) : res (list Z) :=
  match ps with
  | [] => UB
  | p :: ps => bind p (fun s => bind (print_rest (codes ", ") (codes ")") ps)
                 (fun t => Ok (repeat_str (List.length ps) (name ++ codes "(") ++ s ++ t)))
  end.

(** print_call_c, isl_ast.c:1871-1886 *)
Definition print_call_c (ps : list (res (list Z))) : res (list Z) :=
  match ps with
  | [] => UB
  | [p] => bind p (fun f => Ok (f ++ codes "()"))
  | p :: q :: ps =>
      bind p (fun f => bind q (fun s => bind (print_rest (codes ", ") [] ps)
        (fun t => Ok (f ++ codes "(" ++ s ++ t ++ codes ")"))))
  end.

(** print_access_c, isl_ast.c:1892-1905 *)
Definition print_access_c (ps : list (res (list Z))) : res (list Z) :=
  match ps with
  | [] => UB
  | p :: ps => bind p (fun s => bind (print_rest (codes "[") (codes "]") ps) (fun t => Ok (s ++ t)))
  end.

Definition nth_print (ps : list (res (list Z))) (i : nat) : res (list Z) :=
  match nth_error ps i with Some p => p | None => UB end.

(** print_ast_expr_c, isl_ast.c:1909-1982 *)
Fixpoint print_ast_expr_c (nm : names) (e : expr) : res (list Z) :=
  match e with
  | EOp o args =>
      let ps := map (print_ast_expr_c nm) args in
      let name := get_op_str_c nm o in
      if op_eqb o op_call then print_call_c ps
      else if op_eqb o op_access then print_access_c ps
      else if Nat.eqb (List.length args) 1 then
        bind (print_sub_expr_c o args ps 0 false) (fun s => Ok (name ++ s))
      else if op_eqb o op_fdiv_q then
        bind (nth_print ps 0) (fun a => bind (nth_print ps 1) (fun b =>
          Ok (name ++ codes "(" ++ a ++ codes ", " ++ b ++ codes ")")))
      else if op_eqb o op_max || op_eqb o op_min then print_min_max_c name ps
      else if op_eqb o op_cond || op_eqb o op_select then
        bind (nth_print ps 0) (fun a => bind (nth_print ps 1) (fun b => bind (nth_print ps 2) (fun c =>
          Ok (a ++ codes " ? " ++ b ++ codes " : " ++ c))))
      else if negb (Nat.eqb (List.length args) 2) then Null
      else
        let sp := if op_eqb o op_member then [] else codes " " in
        bind (print_sub_expr_c o args ps 0 true) (fun a =>
        bind (print_sub_expr_c o args ps 1 false) (fun b =>
          Ok (a ++ sp ++ name ++ sp ++ b)))
  | EId name => Ok name
  | EInt v => Ok (dec_print v)
  | EErr => Ok []
  end.

(** the replacement text of the macros, isl_ast_expr_op_type_print_macro,
    isl_ast.c:2803-2845 *)
Definition macro_body (o : op) : list Z :=
  match o with
  | op_min => codes "((x) < (y) ? (x) : (y))"
  | op_max => codes "((x) > (y) ? (x) : (y))"
  | op_fdiv_q => codes "(((n)<0) ? -((-(n)+(d)-1)/(d)) : (n)/(d))"
  | _ => []
  end.
