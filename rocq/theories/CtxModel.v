(** Model of isl_ctx.c: operation counting, errors and reference counting.

    A context pointer is an [option]: [None] is NULL.  unsigned long has 64
    bits, int has 32 bits.  The result of malloc, calloc and realloc is an
    argument of the corresponding operation ([true]: not NULL).  Error messages
    and source positions are not modelled, printing on stderr is not observed. *)
From Coq Require Import ZArith List Bool.
Import ListNotations.
Open Scope Z_scope.

(** enum isl_error, include/isl/ctx.h:74-83 *)
Inductive error := Enone | Eabort | Ealloc | Eunknown | Einternal | Einvalid | Equota | Eunsupported.
(** the values of on_error, include/isl/options.h:29-31 *)
Inductive on_error := OWarn | OContinue | OAbort.
(** struct isl_options, as far as needed *)
Record options := mkopt { o_on_error : on_error; o_max : Z }.
(** struct isl_ctx, isl_ctx_private.h:12-42, as far as needed *)
Record ctx := mkctx { c_ref : Z; c_opt : option options; c_error : error; c_abort : bool; c_ops : Z; c_max : Z }.

(** what a call may lead to: a new state and a return value, a call of abort(),
    or undefined behaviour *)
Inductive outcome (A : Type) := Ret (c : option ctx) (a : A) | Abort | UB.
Arguments Ret {A}. Arguments Abort {A}. Arguments UB {A}.

Definition with_error (c : ctx) (e : error) : ctx := mkctx (c_ref c) (c_opt c) e (c_abort c) (c_ops c) (c_max c).
Definition with_ops (c : ctx) (n : Z) : ctx := mkctx (c_ref c) (c_opt c) (c_error c) (c_abort c) n (c_max c).
Definition with_max (c : ctx) (n : Z) : ctx := mkctx (c_ref c) (c_opt c) (c_error c) (c_abort c) (c_ops c) n.
Definition with_abort (c : ctx) (b : bool) : ctx := mkctx (c_ref c) (c_opt c) (c_error c) b (c_ops c) (c_max c).
Definition with_ref (c : ctx) (r : Z) : ctx := mkctx r (c_opt c) (c_error c) (c_abort c) (c_ops c) (c_max c).

(** isl_ctx_set_full_error, isl_ctx.c:119-128 *)
Definition set_full_error (c : option ctx) (e : error) : option ctx :=
  match c with None => None | Some c => Some (with_error c e) end.
(** isl_ctx_set_error, isl_ctx.c:357-360 *)
Definition set_error := set_full_error.
(** isl_handle_error, isl_ctx.c:130-149, as called by isl_die, which then
    returns [code], include/isl/ctx.h:137-141 *)
Definition die {A} (c : option ctx) (e : error) (code : A) : outcome A :=
  match c with
  | None => Ret None code
  | Some c' =>
    match c_opt c' with
    | None => UB (* ctx->opt->on_error with ctx->opt = NULL *)
    | Some o =>
      match o_on_error o with
      | OAbort => Abort
      | _ => Ret (set_full_error c e) code
      end
    end
  end.

(** check_non_null, isl_ctx.c:57-62; the return value tells whether the pointer
    is non-NULL *)
Definition check_non_null (c : option ctx) (p : bool) (size : Z) : outcome bool :=
  if p || (size =? 0) then Ret c p else die c Ealloc false.
(** isl_ctx_next_operation, isl_ctx.c:71-84 *)
Definition next_operation (c : option ctx) : outcome Z :=
  match c with
  | None => Ret None (-1)
  | Some c' =>
    if c_abort c' then Ret (set_error c Eabort) (-1)
    else if negb (c_max c' =? 0) && (c_max c' <=? c_ops c') then die c Equota (-1)
    else Ret (Some (with_ops c' ((c_ops c' + 1) mod 2 ^ 64))) 0
  end.
(** isl_malloc_or_die, isl_ctx.c:89-94; [p] is what malloc returns *)
Definition malloc_or_die (c : option ctx) (p : bool) (size : Z) : outcome bool :=
  match next_operation c with
  | Ret c r => if r <? 0 then Ret c false else match c with Some _ => check_non_null c p size | None => Ret c false end
  | Abort => Abort | UB => UB
  end.
(** isl_calloc_or_die, isl_ctx.c:99-104 *)
Definition calloc_or_die (c : option ctx) (p : bool) (nmemb size : Z) : outcome bool :=
  match next_operation c with
  | Ret c r => if r <? 0 then Ret c false else match c with Some _ => check_non_null c p nmemb | None => Ret c false end
  | Abort => Abort | UB => UB
  end.
(** isl_realloc_or_die, isl_ctx.c:109-114 *)
Definition realloc_or_die (c : option ctx) (p : bool) (size : Z) : outcome bool :=
  match next_operation c with
  | Ret c r => if r <? 0 then Ret c false else match c with Some _ => check_non_null c p size | None => Ret c false end
  | Abort => Abort | UB => UB
  end.

(** isl_ctx_reset_error, isl_ctx.c:347-355 *)
Definition reset_error (c : option ctx) : option ctx := set_full_error c Enone.
(** isl_ctx_last_error, isl_ctx.c:321-324 *)
Definition last_error (c : option ctx) : error := match c with Some c => c_error c | None => Einvalid end.
(** isl_ctx_abort, isl_ctx.c:362-366 *)
Definition ctx_abort (c : option ctx) : option ctx := match c with Some c => Some (with_abort c true) | None => None end.
(** isl_ctx_resume, isl_ctx.c:368-372 *)
Definition ctx_resume (c : option ctx) : option ctx := match c with Some c => Some (with_abort c false) | None => None end.
(** isl_ctx_aborted, isl_ctx.c:374-377 *)
Definition ctx_aborted (c : option ctx) : Z := match c with Some c => if c_abort c then 1 else 0 | None => -1 end.
(** isl_ctx_set_max_operations, isl_ctx.c:388-393 *)
Definition set_max_operations (c : option ctx) (m : Z) : option ctx :=
  match c with Some c => Some (with_max c m) | None => None end.
(** isl_ctx_get_max_operations, isl_ctx.c:397-400 *)
Definition get_max_operations (c : option ctx) : Z := match c with Some c => c_max c | None => 0 end.
(** isl_ctx_reset_operations, isl_ctx.c:404-409 *)
Definition reset_operations (c : option ctx) : option ctx := match c with Some c => Some (with_ops c 0) | None => None end.

(** isl_ctx_ref, isl_ctx.c:270-273 *)
Definition ctx_ref (c : ctx) : outcome unit :=
  if c_ref c + 1 <? 2 ^ 31 then Ret (Some (with_ref c (c_ref c + 1))) tt else UB.
(** isl_ctx_deref, isl_ctx.c:275-279 *)
Definition ctx_deref (c : ctx) : outcome unit :=
  if 0 <? c_ref c then Ret (Some (with_ref c (c_ref c - 1))) tt else die (Some c) Eunknown tt.
(** isl_ctx_free, isl_ctx.c:288-312; the return value tells whether the memory
    is released *)
Definition ctx_free (c : option ctx) : outcome bool :=
  match c with
  | None => Ret None false
  | Some c' =>
    if negb (c_ref c' =? 0) then die c Einvalid false
    else match c_opt c' with None => UB | Some _ => Ret None true end
  end.

(** isl_ctx_alloc_with_options, isl_ctx.c:198-258, for options [opt] that have
    been found or allocated; [p1], [p2], [p3] are the results of the three
    calls of calloc.  The counter and the limit are initially 0. *)
Definition ctx_alloc (opt : options) (p1 p2 p3 : bool) : outcome unit :=
  if negb p1 then Ret None tt
  else
    let c := mkctx 0 None Enone false 0 0 in
    (* isl_hash_table_init *)
    match calloc_or_die (Some c) p2 4 32 with
    | Ret c r =>
      if negb r then Ret None tt
      else
        match calloc_or_die c p3 1 8 with
        | Ret (Some c) r =>
          if negb r then Ret None tt
          else
            let c := mkctx 0 (Some opt) (c_error c) (c_abort c) (c_ops c) (c_max c) in
            let c := reset_error (Some c) in
            let c := reset_operations c in
            Ret (set_max_operations c (o_max opt)) tt
        | Ret None _ => Ret None tt
        | Abort => Abort | UB => UB
        end
    | Abort => Abort | UB => UB
    end.

(** ** histories *)
(** the calls a user of the context can make *)
Inductive call :=
  | CNext | CMalloc (p : bool) (size : Z) | CCalloc (p : bool) (nmemb size : Z) | CRealloc (p : bool) (size : Z)
  | CAbort | CResume | CSetMax (m : Z) | CResetOps | CResetError | CRef | CDeref.
(** one call; the return value tells whether it counted as an operation that
    was allowed *)
Definition drop_val {A B} (o : outcome A) (f : option ctx -> A -> B) : outcome B :=
  match o with Ret c a => Ret c (f c a) | Abort => Abort | UB => UB end.
Definition perform (c : ctx) (k : call) : outcome (option Z) :=
  match k with
  | CNext => drop_val (next_operation (Some c)) (fun _ r => Some r)
  | CMalloc p size => drop_val (malloc_or_die (Some c) p size) (fun _ r => Some (if r then 1 else 0))
  | CCalloc p n size => drop_val (calloc_or_die (Some c) p n size) (fun _ r => Some (if r then 1 else 0))
  | CRealloc p size => drop_val (realloc_or_die (Some c) p size) (fun _ r => Some (if r then 1 else 0))
  | CAbort => Ret (ctx_abort (Some c)) None
  | CResume => Ret (ctx_resume (Some c)) None
  | CSetMax m => Ret (set_max_operations (Some c) m) None
  | CResetOps => Ret (reset_operations (Some c)) None
  | CResetError => Ret (reset_error (Some c)) None
  | CRef => drop_val (ctx_ref c) (fun _ _ => None)
  | CDeref => drop_val (ctx_deref c) (fun _ _ => None)
  end.
(** the history of a sequence of calls: each call together with the value it
    returns and the last error afterwards; stops at abort() *)
Fixpoint history (c : ctx) (l : list call) : option (ctx * list (call * option Z * error)) :=
  match l with
  | [] => Some (c, [])
  | k :: l =>
    match perform c k with
    | Ret (Some c') r =>
      match history c' l with
      | Some (c2, h) => Some (c2, (k, r, c_error c') :: h)
      | None => None
      end
    | _ => None
    end
  end.
