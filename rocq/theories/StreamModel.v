(** Model of the tokenizer isl_stream (isl_stream.c) reading from a string,
    with no user keywords ([s->keywords == NULL]), and of the functions that
    print and read an isl_val.

    Characters are ints (-1 is EOF).  Simplifications: allocation never fails;
    line and column information (used for error messages and for
    isl_stream_next_token_on_same_line only) is not kept; the character
    buffer is an unbounded list; the C locale is assumed.  The conversion
    between integers and decimal digits is done by the bignum library and is
    a trusted specification ([dec_print], [dec_value]). *)
From Coq Require Import ZArith List Bool String Ascii.
From Verif Require Import ValModel.
Import ListNotations.
Open Scope Z_scope.

(** C string literal *)
Fixpoint codes (s : string) : list Z :=
  match s with
  | EmptyString => []
  | String a s' => Z.of_nat (nat_of_ascii a) :: codes s'
  end.

(** struct isl_stream: [str], [un] (top of the stack first), [eof] and
    [tokens] (top first); isl_stream_private.h:41-69 *)
Inductive token :=
| TChar (c : Z)            (* (enum isl_token_type) c *)
| TVal (v : Z)             (* ISL_TOKEN_VALUE *)
| TInfty | TNan            (* ISL_TOKEN_INFTY, ISL_TOKEN_NAN *)
| TKeyword (name : string) (* other built-in keywords *)
| TIdent (s : list Z) | TString (s : list Z)
| TOp (name : string)      (* multi-character operators *)
| TUnknown.
Record stream := mks { s_str : list Z; s_un : list Z; s_eof : bool; s_tok : list token }.

(** isl_stream_new_str, isl_stream.c:219-229 *)
Definition stream_new_str (str : list Z) : stream := mks str [] false [].

(** stream_getc, isl_stream.c:234-257 *)
Definition stream_getc (s : stream) : Z * stream :=
  if s_eof s then (-1, s)
  else match s_un s with
  | c :: un => (c, mks (s_str s) un false (s_tok s))
  | [] => match s_str s with
          | [] => (-1, mks [] [] true (s_tok s))
          | c :: str => (c, mks str [] false (s_tok s))
          end
  end.
(** isl_stream_ungetc, isl_stream.c:259-264 *)
Definition stream_ungetc (s : stream) (c : Z) : stream :=
  if (List.length (s_un s) <? 5)%nat then mks (s_str s) (c :: s_un s) (s_eof s) (s_tok s) else s.
(** isl_stream_getc, isl_stream.c:270-286; [fuel] bounds the number of
    backslash-newline pairs *)
Fixpoint sgetc_loop (fuel : nat) (s : stream) : option (Z * stream) :=
  match fuel with
  | O => None
  | S f =>
    let '(c, s) := stream_getc s in
    if negb (c =? 92) then Some (c, s)
    else let '(c, s) := stream_getc s in
         if c =? 10 then sgetc_loop f s
         else Some (92, stream_ungetc s c)
  end.
(** fuel that suffices for any loop consuming characters of [s] *)
Definition sfuel (s : stream) : nat := S (S (List.length (s_str s) + List.length (s_un s))).
(** isl_stream_getc, isl_stream.c:270-286 *)
Definition sgetc (s : stream) : option (Z * stream) := sgetc_loop (sfuel s) s.
(** [if (c != -1) isl_stream_ungetc(s, c)], e.g. isl_stream.c:447-448 *)
Definition unget_if (s : stream) (c : Z) : stream :=
  if c =? -1 then s else stream_ungetc s c.
(** isl_stream_push_token, isl_stream.c:302-306 *)
Definition push_token (s : stream) (t : token) : stream :=
  if (List.length (s_tok s) <? 5)%nat then mks (s_str s) (s_un s) (s_eof s) (t :: s_tok s) else s.

(** <ctype.h> in the C locale *)
Definition is_digit (c : Z) : bool := (48 <=? c) && (c <=? 57).
Definition is_upper (c : Z) : bool := (65 <=? c) && (c <=? 90).
Definition is_alpha (c : Z) : bool := is_upper c || ((97 <=? c) && (c <=? 122)).
Definition is_space (c : Z) : bool := (c =? 32) || ((9 <=? c) && (c <=? 13)).
Definition to_lower (c : Z) : Z := if is_upper c then c + 32 else c.
Fixpoint list_eqb (a b : list Z) : bool :=
  match a, b with
  | [], [] => true
  | x :: a', y :: b' => (x =? y) && list_eqb a' b'
  | _, _ => false
  end.
(** [!strcasecmp(a, b)] *)
Definition strcase_eq (a : list Z) (b : string) : bool :=
  list_eqb (map to_lower a) (map to_lower (codes b)).

(** check_keywords, isl_stream.c:308-363 (with s->keywords == NULL) *)
Definition check_keywords (buf : list Z) : token :=
  if strcase_eq buf "exists" then TKeyword "exists"
  else if strcase_eq buf "and" then TKeyword "and"
  else if strcase_eq buf "or" then TKeyword "or"
  else if strcase_eq buf "implies" then TKeyword "implies"
  else if strcase_eq buf "not" then TKeyword "not"
  else if strcase_eq buf "infty" then TInfty
  else if strcase_eq buf "infinity" then TInfty
  else if strcase_eq buf "NaN" then TNan
  else if strcase_eq buf "min" then TKeyword "min"
  else if strcase_eq buf "max" then TKeyword "max"
  else if strcase_eq buf "rat" then TKeyword "rat"
  else if strcase_eq buf "true" then TKeyword "true"
  else if strcase_eq buf "false" then TKeyword "false"
  else if strcase_eq buf "ceild" then TKeyword "ceild"
  else if strcase_eq buf "floord" then TKeyword "floord"
  else if strcase_eq buf "mod" then TKeyword "mod"
  else if strcase_eq buf "ceil" then TKeyword "ceil"
  else if strcase_eq buf "floor" then TKeyword "floor"
  else TIdent buf.

(** option monad; [None] means that the fuel ran out (never happens, see
    StreamProofs) *)
Notation "'let!' p := e 'in' k" := (match e with Some p => k | None => None end)
  (at level 200, p pattern, e at level 100, k at level 200).

(** isl_stream_skip_line, isl_stream.c:367-376; returns [true] at EOF *)
Fixpoint skip_line (fuel : nat) (s : stream) : option (bool * stream) :=
  match fuel with
  | O => None
  | S f =>
    let! (c, s) := sgetc s in
    if c =? -1 then Some (true, s) else if c =? 10 then Some (false, s) else skip_line f s
  end.

(** the loop skipping spaces and comment lines in next_token with
    same_line == 0, isl_stream.c:396-408 *)
Fixpoint skip_space (fuel : nat) (s : stream) : option (Z * stream) :=
  match fuel with
  | O => None
  | S f =>
    let! (c, s) := sgetc s in
    if c =? -1 then Some (c, s)
    else if c =? 35 then
      let! (e, s) := skip_line (sfuel s) s in
      if e then Some (c, s) (* break with c == '#' *) else skip_space f s
    else if negb (is_space c) then Some (c, s) else skip_space f s
  end.

(** the loops [while ((c = isl_stream_getc(s)) != -1 && P(c))
    isl_stream_push_char(s, c)], isl_stream.c:466-468,489-491,494-495,513-514;
    returns the characters pushed and the first rejected one *)
Fixpoint take_while (P : Z -> bool) (fuel : nat) (s : stream) : option (list Z * Z * stream) :=
  match fuel with
  | O => None
  | S f =>
    let! (c, s) := sgetc s in
    if negb (c =? -1) && P c then
      let! (l, c', s) := take_while P f s in Some (c :: l, c', s)
    else Some ([], c, s)
  end.

(** value of a list of decimal digits; with an optional leading '-' this is
    isl_int_read, the bignum library's string conversion (trusted) *)
Definition dec_value (l : list Z) : Z := fold_left (fun a c => 10 * a + (c - 48)) l 0.
Definition int_read (l : list Z) : Z :=
  match l with
  | 45 :: l' => - dec_value l'
  | _ => dec_value l
  end.

(** the single character tokens, isl_stream.c:415-436 *)
Definition single (c : Z) : bool := existsb (Z.eqb c) (codes "()+*%?^@$,.;[]{}").

(** next_token with same_line == 0, isl_stream.c:378-684.
    The result [None] in the first component is a NULL token. *)
Definition stream_next_token (s : stream) : option (option token * stream) :=
  match s_tok s with
  | t :: ts => Some (Some t, mks (s_str s) (s_un s) (s_eof s) ts)
  | [] =>
    let! (c, s) := skip_space (sfuel s) s in
    if c =? -1 then Some (None, s)
    else if single c then Some (Some (TChar c), s)
    else
      let! (stop, s) :=
        (if c =? 45 then
           let! (c2, s) := sgetc s in
           if c2 =? 62 then Some (Some (TOp "->"), s)
           else let s := unget_if s c2 in
                if negb (is_digit c2) then Some (Some (TChar 45), s) else Some (None, s)
         else Some (None, s)) in
      match stop with
      | Some t => Some (Some t, s)
      | None =>
        if (c =? 45) || is_digit c then
          let! (l, c2, s) := take_while is_digit (sfuel s) s in
          let s := unget_if s c2 in
          let v := int_read (c :: l) in
          if (c =? 45) && (v =? 0) then Some (Some (TChar 45), push_token s (TVal v))
          else Some (Some (TVal v), s)
        else if is_alpha c || (c =? 95) then
          let! (l, c2, s) := take_while (fun c => is_alpha c || is_digit c || (c =? 95)) (sfuel s) s in
          let s := unget_if s c2 in
          let! (l', c2, s) := take_while (Z.eqb 39) (sfuel s) s in
          let s := unget_if s c2 in
          Some (Some (check_keywords ((c :: l) ++ l')), s)
        else if c =? 34 then
          let! (l, c2, s) := take_while (fun c => negb (c =? 34) && negb (c =? 10)) (sfuel s) s in
          if c2 =? 34 then Some (Some (TString l), s) else Some (None, s)
        else if c =? 61 then
          let! (c2, s) := sgetc s in
          if c2 =? 61 then Some (Some (TOp "=="), s) else Some (Some (TChar 61), unget_if s c2)
        else if c =? 58 then
          let! (c2, s) := sgetc s in
          if c2 =? 61 then Some (Some (TOp ":="), s) else Some (Some (TChar 58), unget_if s c2)
        else if c =? 62 then
          let! (c2, s) := sgetc s in
          if c2 =? 61 then Some (Some (TOp ">="), s)
          else if c2 =? 62 then
            let! (c3, s) := sgetc s in
            if c3 =? 61 then Some (Some (TOp ">>="), s) else Some (Some (TOp ">>"), unget_if s c3)
          else Some (Some (TOp ">"), unget_if s c2)
        else if c =? 60 then
          let! (c2, s) := sgetc s in
          if c2 =? 61 then Some (Some (TOp "<="), s)
          else if c2 =? 60 then
            let! (c3, s) := sgetc s in
            if c3 =? 61 then Some (Some (TOp "<<="), s) else Some (Some (TOp "<<"), unget_if s c3)
          else Some (Some (TOp "<"), unget_if s c2)
        else if c =? 38 then
          let! (c2, s) := sgetc s in
          if negb (c2 =? 38) && negb (c2 =? -1) then Some (Some (TKeyword "and"), stream_ungetc s c2)
          else Some (Some (TKeyword "and"), s)
        else if c =? 124 then
          let! (c2, s) := sgetc s in
          if negb (c2 =? 124) && negb (c2 =? -1) then Some (Some (TKeyword "or"), stream_ungetc s c2)
          else Some (Some (TKeyword "or"), s)
        else if c =? 47 then
          let! (c2, s) := sgetc s in
          if c2 =? 92 then Some (Some (TKeyword "and"), s)
          else if c2 =? 47 then Some (Some (TOp "//"), s)
          else Some (Some (TChar 47), unget_if s c2)
        else if c =? 92 then
          let! (c2, s) := sgetc s in
          if negb (c2 =? 47) && negb (c2 =? -1) then Some (Some (TChar 92), stream_ungetc s c2)
          else Some (Some (TKeyword "or"), s)
        else if c =? 33 then
          let! (c2, s) := sgetc s in
          if c2 =? 61 then Some (Some (TOp "!="), s) else Some (Some (TKeyword "not"), unget_if s c2)
        else Some (Some TUnknown, s)
      end
  end.

(** isl_stream_eat_if_available, isl_stream.c:696-709; the test of the token
    type is passed as a predicate *)
Definition eat_if_available (s : stream) (is : token -> bool) : option (bool * stream) :=
  let! (t, s) := stream_next_token s in
  match t with
  | None => Some (false, s)
  | Some t => if is t then Some (true, s) else Some (false, push_token s t)
  end.

Definition is_infty_tok (t : token) : bool := match t with TInfty => true | _ => false end.
Definition is_char_tok (c : Z) (t : token) : bool := match t with TChar d => c =? d | _ => false end.

(** next_token, isl_input.c:152-175; [isl_int_get_ui] of a negative or huge
    exponent is outside the contract of isl_int_get_ui and modelled as the
    result [None] of the inner option (error) *)
Definition in_next_token (s : stream) : option (option token * stream) :=
  let! (t, s) := stream_next_token s in
  match t with
  | Some (TVal v) =>
      let! (b, s) := eat_if_available s (is_char_tok 94) in
      if negb b then Some (Some (TVal v), s)
      else
        let! (t2, s) := stream_next_token s in
        match t2 with
        | Some (TVal e) => if 0 <=? e then Some (Some (TVal (v ^ e)), s) else Some (None, s)
        | _ => Some (None, s)
        end
  | _ => Some (t, s)
  end.

(** isl_stream_read_val, isl_input.c:189-241; the second component [None] is
    the NULL result *)
Definition stream_read_val (s : stream) : option (option val * stream) :=
  let! (t, s) := in_next_token s in
  match t with
  | None => Some (None, s)
  | Some TInfty => Some (Some v_infty, s)
  | Some t =>
    let! (ninf, s) :=
      (if is_char_tok 45 t then eat_if_available s is_infty_tok else Some (false, s)) in
    if ninf then Some (Some v_neginfty, s)
    else match t with
    | TNan => Some (Some v_nan, s)
    | TVal n =>
        let! (b, s) := eat_if_available s (is_char_tok 47) in
        if b then
          let! (t2, s) := in_next_token s in
          match t2 with
          | Some (TVal d) => Some (Some (v_normalize (v_rat_raw n d)), s)
          | _ => Some (None, s)
          end
        else Some (Some (v_int n), s)
    | _ => Some (None, s)
    end
  end.

(** isl_val_read_from_str, isl_input.c:245-254 *)
Definition val_read_from_str (str : list Z) : option (option val) :=
  let! (v, _) := stream_read_val (stream_new_str str) in Some v.

(** decimal digits of a non-negative integer (bignum library, trusted) *)
Fixpoint dec_digits (fuel : nat) (n : Z) (acc : list Z) : list Z :=
  match fuel with
  | O => acc
  | S f => let acc := (48 + n mod 10) :: acc in
           if n / 10 =? 0 then acc else dec_digits f (n / 10) acc
  end.
(** isl_printer_print_isl_int, isl_printer.c:649-657 *)
Definition dec_print (n : Z) : list Z :=
  if n <? 0 then 45 :: dec_digits (S (Z.to_nat (Z.log2 (- n)))) (- n) []
  else dec_digits (S (Z.to_nat (Z.log2 n))) n [].

(** isl_printer_print_val, isl_val.c:1471-1498, printing to a string *)
Definition val_print (v : val) : list Z :=
  let neg := vn v <? 0 in
  let n := if neg then - vn v else vn v in
  (if neg then codes "-" else []) ++
  (if vd v =? 0
   then (if Z.sgn n <? 0 then codes "-infty" else if Z.sgn n =? 0 then codes "NaN" else codes "infty")
   else dec_print n) ++
  (if negb (vd v =? 0) && negb (vd v =? 1) then codes "/" ++ dec_print (vd v) else []).
