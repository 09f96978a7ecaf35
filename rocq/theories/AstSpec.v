(** Specification for C40: how C reads an expression.

    Independent of isl: the lexical rules of C (longest match), the expression
    grammar of C (postfix, unary, binary and conditional expressions), the
    tree that an AST expression denotes, and the values of both. *)
From Coq Require Import ZArith List Bool String.
From Verif Require Import StreamModel AstModel.
Import ListNotations.
Local Open Scope string_scope.
Local Open Scope list_scope.
Local Open Scope Z_scope.

(** ** Lexical structure *)

(** identifiers, numbers and punctuators *)
Inductive tok := TId (x : list Z) | TNum (n : Z) | TP (s : list Z).

Fixpoint eqs (a b : list Z) : bool :=
  match a, b with
  | [], [] => true
  | x :: a, y :: b => (x =? y) && eqs a b
  | _, _ => false
  end.

Definition letter (c : Z) : bool :=
  ((97 <=? c) && (c <=? 122)) || ((65 <=? c) && (c <=? 90)) || (c =? 95).
Definition digit (c : Z) : bool := (48 <=? c) && (c <=? 57).
Definition idchar (c : Z) : bool := letter c || digit c.
Definition white (c : Z) : bool := (c =? 32) || (c =? 9) || (c =? 10).

Definition keywords : list (list Z) := map codes
  ["auto"; "break"; "case"; "char"; "const"; "continue"; "default"; "do"; "double"; "else"; "enum";
   "extern"; "float"; "for"; "goto"; "if"; "inline"; "int"; "long"; "register"; "restrict"; "return";
   "short"; "signed"; "sizeof"; "static"; "struct"; "switch"; "typedef"; "union"; "unsigned"; "void";
   "volatile"; "while"]%string.
Definition is_keyword (w : list Z) : bool := existsb (eqs w) keywords.

(** an identifier of C *)
Definition ident (w : list Z) : bool :=
  match w with c :: _ => letter c && forallb idchar w && negb (is_keyword w) | [] => false end.

(** the punctuators of C, longest first *)
Definition puncts : list (list Z) := map codes
  ["..."; "<<="; ">>=";
   "->"; "++"; "--"; "<<"; ">>"; "<="; ">="; "=="; "!="; "&&"; "||"; "*="; "/="; "%="; "+="; "-=";
   "&="; "^="; "|="; "##"; "//"; "/*";
   "["; "]"; "("; ")"; "{"; "}"; "."; "&"; "*"; "+"; "-"; "~"; "!"; "/"; "%"; "<"; ">"; "^"; "|";
   "?"; ":"; ";"; "="; ","; "#"]%string.

Fixpoint prefix (p s : list Z) : bool :=
  match p, s with
  | [], _ => true
  | a :: p, b :: s => (a =? b) && prefix p s
  | _, [] => false
  end.

Fixpoint span (P : Z -> bool) (s : list Z) : list Z * list Z :=
  match s with
  | c :: s' => if P c then let (w, r) := span P s' in (c :: w, r) else ([], s)
  | [] => ([], [])
  end.

(** value of a string of decimal digits *)
Definition decimal (w : list Z) : Z := fold_left (fun a c => 10 * a + (c - 48)) w 0.

(** the next token, [None] inside the pair for white space; numbers are
    decimal integers only, comments and floating point numbers are not
    recognized *)
Definition next (s : list Z) : option (option tok * list Z) :=
  match s with
  | [] => None
  | c :: s' =>
      if white c then Some (None, s')
      else if letter c then
        let (w, r) := span idchar s in
        if is_keyword w then None else Some (Some (TId w), r)
      else if digit c then
        let (w, r) := span (fun c => idchar c || (c =? 46)) s in
        if forallb digit w && (negb (c =? 48) || eqs w [48]) then Some (Some (TNum (decimal w)), r) else None
      else
        match find (fun p => prefix p s) puncts with
        | None => None
        | Some p =>
            if eqs p (codes "//") || eqs p (codes "/*") then None
            else if eqs p (codes ".") && match s' with d :: _ => digit d | [] => false end then None
            else Some (Some (TP p), skipn (List.length p) s)
        end
  end.

Fixpoint lex_loop (fuel : nat) (s : list Z) : option (list tok) :=
  match s with
  | [] => Some []
  | _ => match fuel with
         | O => None
         | S f => let! (o, r) := next s in
                  let! ts := lex_loop f r in
                  Some (match o with Some t => t :: ts | None => ts end)
         end
  end.
Definition lex (s : list Z) : option (list tok) := lex_loop (List.length s) s.

(** ** Grammar *)

(** the trees of C expressions *)
Inductive ctree :=
| CId (x : list Z)
| CInt (n : Z)
| CUn (o : list Z) (t : ctree)
| CPost (o : list Z) (t : ctree)
| CBin (o : list Z) (t1 t2 : ctree)
| CCond (c t1 t2 : ctree)
| CCall (f : ctree) (args : list ctree)
| CIndex (a i : ctree)
| CMember (o : list Z) (t : ctree) (x : list Z).

Definition oneof (w : list Z) (l : list string) : bool := existsb (fun p => eqs w (codes p)) l.

Definition unop (o : list Z) : bool := oneof o ["-"; "+"; "&"; "*"; "!"; "~"; "++"; "--"].
Definition postop (o : list Z) : bool := oneof o ["++"; "--"].
Definition memop (o : list Z) : bool := oneof o ["."; "->"].
(** the level of the binary operators, 0 for anything else *)
Definition binlevel (o : list Z) : nat :=
  if oneof o ["*"; "/"; "%"] then 5
  else if oneof o ["+"; "-"] then 6
  else if oneof o ["<<"; ">>"] then 7
  else if oneof o ["<"; ">"; "<="; ">="] then 8
  else if oneof o ["=="; "!="] then 9
  else if oneof o ["&"] then 10
  else if oneof o ["^"] then 11
  else if oneof o ["|"] then 12
  else if oneof o ["&&"] then 13
  else if oneof o ["||"] then 14
  else 0.

Definition P (s : string) : tok := TP (codes s).

(** [G n w t]: the tokens [w] form an expression of level [n] with tree [t].
    Level 0: primary expressions, 2: postfix expressions, 3: unary
    expressions, 5 to 14: binary expressions (left associative),
    15: conditional expressions.  Assignments and the comma operator are left
    out. *)
Inductive G : nat -> list tok -> ctree -> Prop :=
| G_id x : G 0 [TId x] (CId x)
| G_num n : G 0 [TNum n] (CInt n)
| G_paren w t : G 15 w t -> G 0 (P "(" :: w ++ [P ")"]) t
| G_call0 w f : G 2 w f -> G 2 (w ++ [P "("; P ")"]) (CCall f [])
| G_call w f a ts : G 2 w f -> Gargs a ts -> G 2 (w ++ P "(" :: a ++ [P ")"]) (CCall f ts)
| G_index w t v i : G 2 w t -> G 15 v i -> G 2 (w ++ P "[" :: v ++ [P "]"]) (CIndex t i)
| G_member w t o x : G 2 w t -> memop o = true -> G 2 (w ++ [TP o; TId x]) (CMember o t x)
| G_post w t o : G 2 w t -> postop o = true -> G 2 (w ++ [TP o]) (CPost o t)
| G_un o w t : unop o = true -> G 3 w t -> G 3 (TP o :: w) (CUn o t)
| G_bin n o w1 t1 w2 t2 : binlevel o = S n -> G (S n) w1 t1 -> G n w2 t2 ->
    G (S n) (w1 ++ TP o :: w2) (CBin o t1 t2)
| G_cond w1 t1 w2 t2 w3 t3 : G 14 w1 t1 -> G 15 w2 t2 -> G 15 w3 t3 ->
    G 15 (w1 ++ P "?" :: w2 ++ P ":" :: w3) (CCond t1 t2 t3)
| G_up n w t : G n w t -> (n < 15)%nat -> G (S n) w t
with Gargs : list tok -> list ctree -> Prop :=
| Ga_one w t : G 15 w t -> Gargs w [t]
| Ga_more w t a ts : G 15 w t -> Gargs a ts -> Gargs (w ++ P "," :: a) (t :: ts).

(** [text] is read by C as the expression [t] *)
Definition reads_as (text : list Z) (t : ctree) : Prop :=
  exists w, lex text = Some w /\ G 15 w t.

(** ** The tree denoted by an AST expression *)

(** the text of a binary operator of isl in C *)
Definition c_binop (o : op) : option string :=
  match o with
  | op_and | op_and_then => Some "&&"
  | op_or | op_or_else => Some "||"
  | op_add => Some "+" | op_sub => Some "-" | op_mul => Some "*"
  | op_div | op_pdiv_q => Some "/"
  | op_pdiv_r | op_zdiv_r => Some "%"
  | op_eq => Some "==" | op_le => Some "<=" | op_ge => Some ">=" | op_lt => Some "<" | op_gt => Some ">"
  | _ => None
  end%string.

(** the name of the function or macro that C uses for the operation *)
Definition c_fun (nm : names) (o : op) : list Z :=
  match nm o with
  | Some s => s
  | None => match o with
            | op_max => codes "max" | op_min => codes "min" | op_fdiv_q => codes "floord" | _ => []
            end
  end.

(** left-nested reduction with a binary function *)
Definition reduce (f : list Z) (ts : list ctree) : option ctree :=
  match ts with
  | t :: ts => Some (fold_left (fun a b => CCall (CId f) [a; b]) ts t)
  | [] => None
  end.

Definition tree_of_op (nm : names) (o : op) (ts : list (option ctree)) : option ctree :=
  match o, ts with
  | op_minus, [Some a] => Some (CUn (codes "-") a)
  | op_address_of, [Some a] => Some (CUn (codes "&") a)
  | op_fdiv_q, [Some a; Some b] => Some (CCall (CId (c_fun nm o)) [a; b])
  | (op_cond | op_select), [Some a; Some b; Some c] => Some (CCond a b c)
  | op_member, [Some a; Some (CId x)] => Some (CMember (codes ".") a x)
  | _, [Some a; Some b] =>
      match c_binop o with
      | Some s => Some (CBin (codes s) a b)
      | None => None
      end
  | _, _ => None
  end.

Fixpoint all_some {A} (l : list (option A)) : option (list A) :=
  match l with
  | [] => Some []
  | Some a :: l => match all_some l with Some r => Some (a :: r) | None => None end
  | None :: _ => None
  end.

Fixpoint tree_of (nm : names) (e : expr) : option ctree :=
  match e with
  | EErr => None
  | EId x => Some (CId x)
  | EInt v => Some (if v <? 0 then CUn (codes "-") (CInt (- v)) else CInt v)
  | EOp o args =>
      let ts := map (tree_of nm) args in
      match o with
      | op_max | op_min => match all_some ts with Some l => reduce (c_fun nm o) l | None => None end
      | op_call => match all_some ts with Some (f :: l) => Some (CCall f l) | _ => None end
      | op_access => match all_some ts with Some (a :: l) => Some (fold_left CIndex l a) | _ => None end
      | _ => tree_of_op nm o ts
      end
  end.

(** ** The expressions that are printed faithfully *)

Definition is_op (os : list op) (e : expr) : bool :=
  match e with EOp o _ => existsb (op_eqb o) os | _ => false end.

(** expressions that can be called, indexed or selected from without parentheses *)
Definition postfix_like (e : expr) : bool :=
  match e with EId _ => true | _ => is_op [op_call; op_access; op_member; op_max; op_min; op_fdiv_q] e end.

Definition starts_minus (e : expr) : bool :=
  match e with EInt v => v <? 0 | _ => is_op [op_minus] e end.

(** every operation has the right number of arguments, names are identifiers
    and the following do not occur: a minus directly under a minus or in front
    of a negative integer, the address of an address, a conditional as the
    condition of another, a call of or an access to an expression that is not
    a postfix expression, a member of an integer *)
Definition printable_op (o : op) (args : list expr) : bool :=
  match o, args with
  | op_minus, [a] => negb (starts_minus a)
  | op_address_of, [a] => negb (is_op [op_address_of] a)
  | (op_cond | op_select), [a; _; _] => negb (is_op [op_cond; op_select] a)
  | (op_call | op_access), f :: _ => postfix_like f
  | op_member, [a; EId _] => match a with EInt _ => false | _ => true end
  | (op_max | op_min), _ :: _ :: _ => true
  | op_fdiv_q, [_; _] => true
  | (op_and | op_and_then | op_or | op_or_else | op_add | op_sub | op_mul | op_div | op_pdiv_q | op_pdiv_r
     | op_zdiv_r | op_eq | op_le | op_lt | op_ge | op_gt), [_; _] => true
  | _, _ => false
  end.

Fixpoint printable (e : expr) : bool :=
  match e with
  | EErr => false
  | EId x => ident x
  | EInt _ => true
  | EOp o args => printable_op o args && forallb printable args
  end.

(** only the functions have been renamed, to identifiers *)
Definition names_ok (nm : names) : Prop :=
  forall o s, nm o = Some s -> (o = op_max \/ o = op_min \/ o = op_fdiv_q) /\ ident s = true.

Definition no_names : names := fun _ => None.

(** ** Values *)

Definition b2z (b : bool) : Z := if b then 1 else 0.

(** the value of an expression over mathematical integers, following the
    description of the operations in the manual (doc/user.pod); [None] if an
    operation is applied outside its documented domain, for calls, accesses,
    members and addresses, and for a zdiv_r that is not compared with zero *)
Definition value_op (o : op) (vs : list (option Z)) : option Z :=
  match o, vs with
  | op_and, [Some a; Some b] => Some (b2z (negb (a =? 0) && negb (b =? 0)))
  | op_and_then, [Some a; b] =>
      if a =? 0 then Some 0 else match b with Some b => Some (b2z (negb (b =? 0))) | None => None end
  | op_or, [Some a; Some b] => Some (b2z (negb (a =? 0) || negb (b =? 0)))
  | op_or_else, [Some a; b] =>
      if a =? 0 then match b with Some b => Some (b2z (negb (b =? 0))) | None => None end else Some 1
  | op_minus, [Some a] => Some (- a)
  | op_add, [Some a; Some b] => Some (a + b)
  | op_sub, [Some a; Some b] => Some (a - b)
  | op_mul, [Some a; Some b] => Some (a * b)
  | op_div, [Some a; Some b] => if (b =? 0) || negb (a mod b =? 0) then None else Some (a / b)
  | op_fdiv_q, [Some a; Some b] => if 0 <? b then Some (a / b) else None
  | op_pdiv_q, [Some a; Some b] => if (0 <=? a) && (0 <? b) then Some (a / b) else None
  | op_pdiv_r, [Some a; Some b] => if (0 <=? a) && (0 <? b) then Some (a mod b) else None
  | op_cond, [Some a; b; c] => if a =? 0 then c else b
  | op_select, [Some a; Some b; Some c] => Some (if a =? 0 then c else b)
  | op_eq, [Some a; Some b] => Some (b2z (a =? b))
  | op_le, [Some a; Some b] => Some (b2z (a <=? b))
  | op_lt, [Some a; Some b] => Some (b2z (a <? b))
  | op_ge, [Some a; Some b] => Some (b2z (a >=? b))
  | op_gt, [Some a; Some b] => Some (b2z (a >? b))
  | _, _ => None
  end.

Definition fold1 (f : Z -> Z -> Z) (l : list Z) : option Z :=
  match l with a :: b :: l => Some (fold_left f (b :: l) a) | _ => None end.

Fixpoint value (env : list Z -> Z) (e : expr) : option Z :=
  match e with
  | EErr => None
  | EId x => Some (env x)
  | EInt v => Some v
  | EOp o args =>
      let vs := map (value env) args in
      match o, args with
      | op_max, _ => match all_some vs with Some l => fold1 Z.max l | None => None end
      | op_min, _ => match all_some vs with Some l => fold1 Z.min l | None => None end
      | op_eq, [EOp op_zdiv_r [a; b]; EInt z] =>
          match value env a, value env b with
          | Some a, Some b => if (0 <? b) && (z =? 0) then Some (b2z (a mod b =? 0)) else None
          | _, _ => None
          end
      | _, _ => value_op o vs
      end
  end.

(** the value of a C expression over integers without overflow: division and
    remainder truncate, [&&], [||] and [?:] evaluate what they need, functions
    as given *)
Fixpoint cval (env : list Z -> Z) (fn : list Z -> list Z -> option Z) (t : ctree) : option Z :=
  match t with
  | CId x => Some (env x)
  | CInt n => Some n
  | CUn o a =>
      match cval env fn a with
      | Some a => if oneof o ["-"] then Some (- a) else if oneof o ["+"] then Some a
                  else if oneof o ["!"] then Some (b2z (a =? 0)) else None
      | None => None
      end
  | CBin o a b =>
      match cval env fn a with
      | None => None
      | Some x =>
          if oneof o ["&&"] then
            if x =? 0 then Some 0 else match cval env fn b with Some y => Some (b2z (negb (y =? 0))) | None => None end
          else if oneof o ["||"] then
            if x =? 0 then match cval env fn b with Some y => Some (b2z (negb (y =? 0))) | None => None end else Some 1
          else
          match cval env fn b with
          | None => None
          | Some y =>
              if oneof o ["+"] then Some (x + y)
              else if oneof o ["-"] then Some (x - y)
              else if oneof o ["*"] then Some (x * y)
              else if oneof o ["/"] then if y =? 0 then None else Some (Z.quot x y)
              else if oneof o ["%"] then if y =? 0 then None else Some (Z.rem x y)
              else if oneof o ["=="] then Some (b2z (x =? y))
              else if oneof o ["!="] then Some (b2z (negb (x =? y)))
              else if oneof o ["<="] then Some (b2z (x <=? y))
              else if oneof o [">="] then Some (b2z (x >=? y))
              else if oneof o ["<"] then Some (b2z (x <? y))
              else if oneof o [">"] then Some (b2z (x >? y))
              else None
          end
      end
  | CCond c a b =>
      match cval env fn c with
      | Some c => if c =? 0 then cval env fn b else cval env fn a
      | None => None
      end
  | CCall (CId f) args =>
      match all_some (map (cval env fn) args) with
      | Some vs => fn f vs
      | None => None
      end
  | _ => None
  end.

(** the three functions have the expected meaning under their name in C; the
    division function only for positive divisors *)
Definition functions_ok (nm : names) (fn : list Z -> list Z -> option Z) : Prop :=
  (forall a b, fn (c_fun nm op_max) [a; b] = Some (Z.max a b)) /\
  (forall a b, fn (c_fun nm op_min) [a; b] = Some (Z.min a b)) /\
  (forall a b, 0 < b -> fn (c_fun nm op_fdiv_q) [a; b] = Some (a / b)).
