(** Model of isl's small-integer-optimised integers (isl_int with
    USE_SMALL_INT_OPT), file /repo/isl_int_sioimath.h and
    /repo/isl_int_sioimath.c.

    A value of C type [isl_sioimath] is a 64-bit word, modelled as a [Z] in
    [0, 2^64).  Big numbers live in a heap that maps addresses to the integer
    stored in the IMath object at that address.  IMath itself (git submodule
    imath, not present in /repo) is trusted: its functions are modelled by
    exact integer arithmetic on the stored values and are assumed to allow the
    destination to alias an operand, as IMath documents.  Every read or free
    of an address that is not allocated is the distinct outcome [UB], as is
    any signed overflow or division by zero in the modelled C code.
    Failure of mp_int_alloc is the distinct outcome [OOM].

    Platform: LP64 (long is 64 bits, pointers are 64 bits), as for GCC/Clang on
    x86-64 Linux. *)
From Coq Require Import ZArith List Bool.
Import ListNotations.
Open Scope Z_scope.

(** * Outcomes *)
Inductive res (A : Type) : Type :=
| Ok (a : A)
| UB          (* undefined behaviour: the real program may do anything *)
| OOM.        (* mp_int_alloc failed *)
Arguments Ok {A} a. Arguments UB {A}. Arguments OOM {A}.

(** address |-> value of the IMath integer allocated there *)
Definition heap := Z -> option Z.
Definition hupd (h : heap) (a : Z) (v : option Z) : heap :=
  fun b => if Z.eqb b a then v else h b.

(** A state-passing computation. *)
Definition M (A : Type) := heap -> res (A * heap).
Definition ret {A} (a : A) : M A := fun h => Ok (a, h).
Definition bind {A B} (m : M A) (k : A -> M B) : M B :=
  fun h => match m h with
           | Ok (a, h') => k a h'
           | UB => UB
           | OOM => OOM
           end.
Definition ub {A} : M A := fun _ => UB.
Notation "x <- m ;; k" := (bind m (fun x => k))
  (at level 60, m at next level, right associativity).

(** * C integer types (LP64) *)
Definition INT32_MAX := 2147483647.
Definition INT32_MIN := -2147483648.
Definition UINT32_MAX := 4294967295.
Definition INT64_MAX := 9223372036854775807.
Definition INT64_MIN := -9223372036854775808.
Definition LONG_MAX := INT64_MAX.
Definition LONG_MIN := INT64_MIN.
Definition u32 (x : Z) := x mod 2 ^ 32.
Definition u64 (x : Z) := x mod 2 ^ 64.
(** conversion to a signed type: two's complement reduction *)
Definition s32 (x : Z) := let y := x mod 2 ^ 32 in
                          if y <? 2 ^ 31 then y else y - 2 ^ 32.
Definition s64 (x : Z) := let y := x mod 2 ^ 64 in
                          if y <? 2 ^ 63 then y else y - 2 ^ 64.
Definition in_s32 (x : Z) := (INT32_MIN <=? x) && (x <=? INT32_MAX).
Definition in_s64 (x : Z) := (INT64_MIN <=? x) && (x <=? INT64_MAX).
(** signed 32/64-bit arithmetic: overflow is UB *)
Definition chk64 (x : Z) : M Z := if in_s64 x then ret x else ub.
Definition chk32 (x : Z) : M Z := if in_s32 x then ret x else ub.
(** C division and remainder truncate; division by zero is UB *)
Definition cdiv (x y : Z) : M Z := if y =? 0 then ub else ret (Z.quot x y).
Definition cmod (x y : Z) : M Z := if y =? 0 then ub else ret (Z.rem x y).
(** labs on a 64-bit long *)
Definition labs (x : Z) : M Z := chk64 (Z.abs x).

(** * The representation *)
(** ISL_SIOIMATH_SMALL_MIN / MAX, isl_int_sioimath.h:89-92 *)
Definition SMALL_MIN := - INT32_MAX.
Definition SMALL_MAX := INT32_MAX.

(** isl_sioimath_is_small, isl_int_sioimath.h:102-105 *)
Definition is_small (w : Z) : bool := Z.land w 1 =? 1.
(** isl_sioimath_is_big, isl_int_sioimath.h:109-112 *)
Definition is_big (w : Z) : bool := negb (is_small w).
(** isl_sioimath_get_small, isl_int_sioimath.h:117-120:
    int32_t conversion of an unsigned shift *)
Definition get_small (w : Z) : Z := s32 (Z.shiftr w 32).
(** isl_sioimath_encode_small, isl_int_sioimath.h:152-155 *)
Definition encode_small (v : Z) : Z :=
  Z.lor (u64 (Z.shiftl (u64 v) 32)) 1.
(** isl_sioimath_get_big / encode_big (lines 125-128, 159-162) are the identity
    on addresses: big words are used as addresses directly. *)

Section Alloc.
(** mp_int_alloc (IMath): may fail, otherwise returns an address.  The
    freshness and alignment of its results are hypotheses of the theorems. *)
Variable alloc : heap -> option Z.

(** a pointer to an IMath integer that is only read: a heap object or the
    scratch space on the stack (isl_sioimath_scratchspace_t, lines 186-190) *)
Inductive mpptr := Scratch (v : Z) | Ptr (a : Z).

Definition deref (p : mpptr) : M Z :=
  fun h => match p with
           | Scratch v => Ok (v, h)
           | Ptr a => match h a with Some v => Ok (v, h) | None => UB end
           end.

(** ** ISL_SIOIMATH_TO_DIGITS, isl_int_sioimath.h:204-218
    [dbits] is sizeof(mp_digit)*CHAR_BIT; [nd] is
    (sizeof(num)+sizeof(mp_digit)-1)/sizeof(mp_digit), the loop bound.
    Returns the digits written (so "used" is their number). *)
Fixpoint to_digits (dbits : Z) (nd : nat) (num : Z) (i : Z) : list Z :=
  match nd with
  | O => []
  | S nd' =>
    let d := Z.shiftr num (dbits * i) mod 2 ^ dbits in
    match nd' with
    | O => [d]                                   (* i >= bound: break *)
    | _ => if Z.shiftr num (dbits * (i + 1)) =? 0 then [d]
           else d :: to_digits dbits nd' num (i + 1)
    end
  end.
(** value of little-endian digits *)
Fixpoint of_digits (dbits : Z) (ds : list Z) : Z :=
  match ds with
  | [] => 0
  | d :: ds' => d + 2 ^ dbits * of_digits dbits ds'
  end.
(** mp_digit width; IMath uses 32-bit or 16-bit digits (lines 174-175).  The
    model is instantiated with 32-bit digits, 64-bit words (USE_64BIT_WORDS
    is IMath's default on LP64). *)
Definition DIGIT_BITS := 32.
Definition uint32_to_digits (num : Z) := to_digits DIGIT_BITS 1 num 0.
Definition uint64_to_digits (num : Z) := to_digits DIGIT_BITS 2 num 0.
Definition ulong_to_digits (num : Z) := to_digits DIGIT_BITS 2 num 0.
Definition mpz (neg : bool) (ds : list Z) : Z :=
  let v := of_digits DIGIT_BITS ds in if neg then - v else v.

(** isl_sioimath_bigarg_src, isl_int_sioimath.h:247-270 *)
Definition bigarg_src (arg : Z) : M mpptr :=
  if is_big arg then ret (Ptr arg) else
  let small := get_small arg in
  if 0 <=? small then ret (Scratch (mpz false (uint32_to_digits (u32 small))))
  else n <- chk32 (- small) ;;
       ret (Scratch (mpz true (uint32_to_digits (u32 n)))).

(** isl_sioimath_siarg_src, isl_int_sioimath.h:274-291 *)
Definition siarg_src (arg : Z) : M mpptr :=
  if 0 <=? arg then ret (Scratch (mpz false (ulong_to_digits (u64 arg))))
  else if arg =? LONG_MIN
       then ret (Scratch (mpz true (ulong_to_digits (u64 (LONG_MAX + 1)))))
       else n <- chk64 (- arg) ;;
            ret (Scratch (mpz true (ulong_to_digits (u64 n)))).

(** isl_sioimath_si64arg_src, isl_int_sioimath.h:295-312 *)
Definition si64arg_src (arg : Z) : M mpptr :=
  if 0 <=? arg then ret (Scratch (mpz false (uint64_to_digits (u64 arg))))
  else if arg =? INT64_MIN
       then ret (Scratch (mpz true (uint64_to_digits (u64 (INT64_MAX + 1)))))
       else n <- chk64 (- arg) ;;
            ret (Scratch (mpz true (uint64_to_digits (u64 n)))).

(** isl_sioimath_uiarg_src, isl_int_sioimath.h:316-325 *)
Definition uiarg_src (arg : Z) : M mpptr :=
  ret (Scratch (mpz false (ulong_to_digits arg))).

(** mp_int_alloc: the fresh IMath integer holds 0 *)
Definition mp_alloc : M Z :=
  fun h => match alloc h with
           | Some a => Ok (a, hupd h a (Some 0))
           | None => OOM
           end.
(** mp_int_free: freeing something not allocated is UB *)
Definition mp_free (a : Z) : M unit :=
  fun h => match h a with
           | Some _ => Ok (tt, hupd h a None)
           | None => UB
           end.
(** an IMath function storing [v] into the object at [a] *)
Definition mp_store (a v : Z) : M unit :=
  fun h => match h a with
           | Some _ => Ok (tt, hupd h a (Some v))
           | None => UB
           end.

(** isl_sioimath_reinit_big, isl_int_sioimath.h:331-336.
    Functions that modify *ptr return the new word. *)
Definition reinit_big (w : Z) : M Z :=
  if is_small w then mp_alloc else ret w.

(** isl_sioimath_set_small, isl_int_sioimath.h:340-345; the parameter has
    type int32_t, so the argument is converted. *)
Definition set_small (w v : Z) : M Z :=
  if is_big w then _u <- mp_free w ;; ret (encode_small (s32 v))
  else ret (encode_small (s32 v)).

Definition fits_small (v : Z) : bool := (SMALL_MIN <=? v) && (v <=? SMALL_MAX).

(** isl_sioimath_set_int64, isl_int_sioimath.h:361-371 *)
Definition set_int64 (w v : Z) : M Z :=
  if fits_small v then set_small w v else
  p <- si64arg_src v ;;
  a <- reinit_big w ;;
  x <- deref p ;; _u <- mp_store a x ;; ret a.

(** isl_sioimath_promote, isl_int_sioimath.h:375-384 *)
Definition promote (w : Z) : M Z :=
  if is_big w then ret w else
  let small := get_small w in
  a <- reinit_big w ;; _u <- mp_store a small ;; ret a.

(** mp_int_to_int succeeds iff the value fits in mp_small (long) *)
Definition fits_long (v : Z) : bool := (LONG_MIN <=? v) && (v <=? LONG_MAX).
Definition fits_ulong_v (v : Z) : bool := (0 <=? v) && (v <? 2 ^ 64).

(** isl_sioimath_try_demote, isl_int_sioimath.h:389-401 *)
Definition try_demote (w : Z) : M Z :=
  if is_small w then ret w else
  v <- deref (Ptr w) ;;
  if negb (fits_long v) then ret w
  else if fits_small v then set_small w v else ret w.

(** isl_sioimath_init, isl_int_sioimath.h:405-408 *)
Definition init : Z := encode_small 0.
(** isl_sioimath_clear, isl_int_sioimath.h:412-418 *)
Definition clear (w : Z) : M unit :=
  if is_small w then ret tt else mp_free w.

(** isl_sioimath_set, isl_int_sioimath.h:422-430 *)
Definition set (dst val : Z) : M Z :=
  if is_small val then set_small dst (get_small val) else
  a <- reinit_big dst ;;
  x <- deref (Ptr val) ;; _u <- mp_store a x ;; ret a.

(** isl_sioimath_set_si, isl_int_sioimath.h:434-442 *)
Definition set_si (dst val : Z) : M Z :=
  if fits_small val then set_small dst val else
  a <- reinit_big dst ;; _u <- mp_store a val ;; ret a.

(** isl_sioimath_set_ui, isl_int_sioimath.h:446-454 *)
Definition set_ui (dst val : Z) : M Z :=
  if val <=? SMALL_MAX then set_small dst val else
  a <- reinit_big dst ;; _u <- mp_store a val ;; ret a.

(** isl_sioimath_fits_slong, isl_int_sioimath.h:458-466 *)
Definition fits_slong (val : Z) : M bool :=
  if is_small val then ret true else
  v <- deref (Ptr val) ;; ret (fits_long v).
(** isl_sioimath_get_si, isl_int_sioimath.h:471-480; an mp_int_to_int that
    fails leaves "result" uninitialised, which is UB *)
Definition get_si (val : Z) : M Z :=
  if is_small val then ret (get_small val) else
  v <- deref (Ptr val) ;; if fits_long v then ret v else ub.
(** isl_sioimath_fits_ulong, isl_int_sioimath.h:484-492 *)
Definition fits_ulong (val : Z) : M bool :=
  if is_small val then ret (0 <=? get_small val) else
  v <- deref (Ptr val) ;; ret (fits_ulong_v v).
(** isl_sioimath_get_ui, isl_int_sioimath.h:497-506 *)
Definition get_ui (val : Z) : M Z :=
  if is_small val then ret (u64 (get_small val)) else
  v <- deref (Ptr val) ;; if fits_ulong_v v then ret v else ub.

(** canonical digits of a non-negative number: IMath keeps "used" minimal
    but at least one (trusted) *)
Fixpoint digits_fuel (dbits : Z) (fuel : nat) (v : Z) : list Z :=
  match fuel with
  | O => [v mod 2 ^ dbits]
  | S f => if v / 2 ^ dbits =? 0 then [v mod 2 ^ dbits]
           else v mod 2 ^ dbits :: digits_fuel dbits f (v / 2 ^ dbits)
  end.
Definition digits_of (v : Z) : list Z :=
  digits_fuel DIGIT_BITS (Z.to_nat (Z.log2 v)) v.

(** isl_sioimath_get_d, isl_int_sioimath.h:510-528.  Simplification: the
    floating-point operations are modelled by exact integer arithmetic (they
    are exact as long as all intermediate results are integers below 2^53). *)
Definition get_d (val : Z) : M Z :=
  if is_small val then ret (get_small val) else
  v <- deref (Ptr val) ;;
  let r := fold_left (fun result d => result * 2 ^ DIGIT_BITS + d)
                     (digits_of (Z.abs v)) 0 in
  ret (if v <? 0 then - r else r).

(** isl_sioimath_abs, isl_int_sioimath.h:550-558 *)
Definition abs (dst arg : Z) : M Z :=
  if is_small arg then v <- labs (get_small arg) ;; set_small dst v else
  a <- reinit_big dst ;;
  x <- deref (Ptr arg) ;; _u <- mp_store a (Z.abs x) ;; ret a.

(** isl_sioimath_neg, isl_int_sioimath.h:562-570 *)
Definition neg (dst arg : Z) : M Z :=
  if is_small arg then v <- chk32 (- get_small arg) ;; set_small dst v else
  a <- reinit_big dst ;;
  x <- deref (Ptr arg) ;; _u <- mp_store a (- x) ;; ret a.

(** The common tail "mp_op(bigarg(lhs), bigarg(rhs), reinit_big(dst))",
    for an IMath function computing [f]; [demote] tells whether
    isl_sioimath_try_demote(dst) follows. *)
Definition big_op2 (f : Z -> Z -> Z) (demote : bool) (dst : Z)
           (pl pr : mpptr) : M Z :=
  a <- reinit_big dst ;;
  x <- deref pl ;; y <- deref pr ;;
  _u <- mp_store a (f x y) ;;
  if demote then try_demote a else ret a.
(** the same for a partial operation: IMath division by zero is UB here *)
Definition big_div (f : Z -> Z -> Z) (dst : Z) (pl pr : mpptr) : M Z :=
  a <- reinit_big dst ;;
  x <- deref pl ;; y <- deref pr ;;
  if y =? 0 then ub else
  _u <- mp_store a (f x y) ;; try_demote a.

(** isl_sioimath_add_ui, isl_int_sioimath.h:589-604.
    (int64_t) smalllhs + rhs is computed in unsigned long and converted to the
    int64_t parameter of set_int64. *)
Definition add_ui (dst lhs rhs : Z) : M Z :=
  if is_small lhs && (rhs <=? u64 INT64_MAX - u64 SMALL_MAX)
  then set_int64 dst (s64 (u64 (u64 (get_small lhs) + rhs)))
  else p <- bigarg_src lhs ;;
       big_op2 Z.add true dst p (Scratch rhs).

(** isl_sioimath_sub_ui, isl_int_sioimath.h:612-627.
    The guard is (uint64_t) INT64_MIN - (uint64_t) ISL_SIOIMATH_SMALL_MIN in
    uint64_t arithmetic. *)
Definition sub_ui (dst lhs rhs : Z) : M Z :=
  if is_small lhs && (rhs <? u64 (u64 INT64_MIN - u64 SMALL_MIN))
  then set_int64 dst (s64 (u64 (u64 (get_small lhs) - rhs)))
  else p <- bigarg_src lhs ;;
       big_op2 Z.sub true dst p (Scratch rhs).

(** isl_sioimath_add, isl_int_sioimath.h:631-648 *)
Definition add (dst lhs rhs : Z) : M Z :=
  if is_small lhs && is_small rhs
  then v <- chk64 (get_small lhs + get_small rhs) ;; set_int64 dst v
  else pl <- bigarg_src lhs ;; pr <- bigarg_src rhs ;;
       big_op2 Z.add true dst pl pr.

(** isl_sioimath_sub, isl_int_sioimath.h:652-669 *)
Definition sub (dst lhs rhs : Z) : M Z :=
  if is_small lhs && is_small rhs
  then v <- chk64 (get_small lhs - get_small rhs) ;; set_int64 dst v
  else pl <- bigarg_src lhs ;; pr <- bigarg_src rhs ;;
       big_op2 Z.sub true dst pl pr.

(** isl_sioimath_mul, isl_int_sioimath.h:673-690 *)
Definition mul (dst lhs rhs : Z) : M Z :=
  if is_small lhs && is_small rhs
  then v <- chk64 (get_small lhs * get_small rhs) ;; set_int64 dst v
  else pl <- bigarg_src lhs ;; pr <- bigarg_src rhs ;;
       big_op2 Z.mul true dst pl pr.

(** isl_sioimath_mul_2exp, isl_int_sioimath.h:695-708.  C leaves the left
    shift of a negative value undefined; all supported compilers define it as
    multiplication by a power of two, which is what is modelled (noted in
    DESIGN.md).  No try_demote follows the big case. *)
Definition mul_2exp (dst lhs rhs : Z) : M Z :=
  if is_small lhs && (rhs <=? 32)
  then v <- chk64 (Z.shiftl (get_small lhs) rhs) ;; set_int64 dst v
  else p <- bigarg_src lhs ;;
       big_op2 (fun x k => x * 2 ^ k) false dst p (Scratch rhs).

(** isl_sioimath_mul_si, isl_int_sioimath.h:712-728 *)
Definition mul_si (dst lhs rhs : Z) : M Z :=
  if is_small lhs && (LONG_MIN <? rhs) && (Z.abs rhs <=? UINT32_MAX)
  then v <- chk64 (get_small lhs * rhs) ;; set_int64 dst v
  else pl <- bigarg_src lhs ;; pr <- siarg_src rhs ;;
       big_op2 Z.mul true dst pl pr.

(** isl_sioimath_mul_ui, isl_int_sioimath.h:732-747 *)
Definition mul_ui (dst lhs rhs : Z) : M Z :=
  if is_small lhs && (rhs <=? UINT32_MAX)
  then v <- chk64 (get_small lhs * s64 rhs) ;; set_int64 dst v
  else pl <- bigarg_src lhs ;; pr <- uiarg_src rhs ;;
       big_op2 Z.mul true dst pl pr.

(** isl_sioimath_pow_ui, isl_int_sioimath.h:754-798.  MP_SMALL_MIN is
    LONG_MIN; comparing it with the unsigned long rhs converts it to
    unsigned, so the guard of the mp_int_expt_value branch is modelled with
    u64. *)
Definition pow_ui (dst lhs rhs : Z) : M Z :=
  if rhs =? 0 then set_small dst 1
  else if rhs =? 1 then set dst lhs
  else if rhs =? 2 then mul dst lhs lhs
  else
  let full :=
    pl <- bigarg_src lhs ;; pr <- uiarg_src rhs ;;
    big_op2 Z.pow true dst pl pr in
  if is_small lhs then
    let s := get_small lhs in
    if s =? 0 then set_small dst 0
    else if s =? 1 then set_small dst 1
    else if s =? 2 then d <- set_small dst 1 ;; mul_2exp d d rhs
    else if (u64 LONG_MIN <=? rhs) && (rhs <=? u64 LONG_MAX)
         then big_op2 Z.pow true dst (Scratch s) (Scratch rhs)
         else full
  else full.

(** isl_sioimath_addmul, isl_int_sioimath.h:802-810 *)
Definition addmul (dst lhs rhs : Z) : M Z :=
  tmp <- mul init lhs rhs ;;
  d <- add dst dst tmp ;; _u <- clear tmp ;; ret d.
(** isl_sioimath_addmul_ui, isl_int_sioimath.h:814-822 *)
Definition addmul_ui (dst lhs rhs : Z) : M Z :=
  tmp <- mul_ui init lhs rhs ;;
  d <- add dst dst tmp ;; _u <- clear tmp ;; ret d.
(** isl_sioimath_submul, isl_int_sioimath.h:826-834 *)
Definition submul (dst lhs rhs : Z) : M Z :=
  tmp <- mul init lhs rhs ;;
  d <- sub dst dst tmp ;; _u <- clear tmp ;; ret d.
(** isl_sioimath_submul_ui, isl_int_sioimath.h:838-846 *)
Definition submul_ui (dst lhs rhs : Z) : M Z :=
  tmp <- mul_ui init lhs rhs ;;
  d <- sub dst dst tmp ;; _u <- clear tmp ;; ret d.

(** isl_sioimath_smallgcd, isl_int_sioimath.c:84-97: Euclid's loop on
    uint32_t values.  [fuel] bounds the iterations; exhausting it is reported
    as [None], which the theorems exclude (64 iterations always suffice since
    the product of the two numbers at least halves). *)
Fixpoint smallgcd_loop (fuel : nat) (dividend divisor : Z) : option Z :=
  if divisor =? 0 then Some dividend else
  match fuel with
  | O => None
  | S f => smallgcd_loop f divisor (Z.rem dividend divisor)
  end.
Definition smallgcd (lhs rhs : Z) : M Z :=
  a <- labs lhs ;; b <- labs rhs ;;
  match smallgcd_loop 64 (u32 a) (u32 b) with
  | Some g => ret g
  | None => ub
  end.

(** isl_sioimath_gcd, isl_int_sioimath.c:103-121 *)
Definition gcd (dst lhs rhs : Z) : M Z :=
  if is_small lhs && is_small rhs
  then g <- smallgcd (get_small lhs) (get_small rhs) ;; set_small dst g
  else pl <- bigarg_src lhs ;; pr <- bigarg_src rhs ;;
       big_op2 Z.gcd true dst pl pr.

(** isl_sioimath_lcm, isl_int_sioimath.c:125-149.  uint64_t product; the
    quotient is converted to the int64_t parameter of set_int64. *)
Definition lcm (dst lhs rhs : Z) : M Z :=
  if is_small lhs && is_small rhs
  then
    let l := get_small lhs in let r := get_small rhs in
    if (l =? 0) || (r =? 0) then set_small dst 0 else
    g <- smallgcd l r ;;
    a <- chk32 (Z.abs l) ;; b <- chk32 (Z.abs r) ;;
    q <- cdiv (u64 (u64 a * u64 b)) g ;;
    set_int64 dst (s64 q)
  else pl <- bigarg_src lhs ;; pr <- bigarg_src rhs ;;
       big_op2 Z.lcm true dst pl pr.

(** isl_sioimath_tdiv_q, isl_int_sioimath.h:855-872 *)
Definition tdiv_q (dst lhs rhs : Z) : M Z :=
  if is_small lhs && is_small rhs
  then q <- cdiv (get_small lhs) (get_small rhs) ;; set_small dst q
  else pl <- bigarg_src lhs ;; pr <- bigarg_src rhs ;;
       big_div Z.quot dst pl pr.

(** isl_sioimath_tdiv_q_ui, isl_int_sioimath.h:876-899 *)
Definition tdiv_q_ui (dst lhs rhs : Z) : M Z :=
  if is_small lhs && (rhs <=? INT32_MAX)
  then q <- cdiv (get_small lhs) (s32 rhs) ;; set_small dst q
  else if rhs <=? LONG_MAX
  then pl <- bigarg_src lhs ;; big_div Z.quot dst pl (Scratch rhs)
  else pl <- bigarg_src lhs ;; pr <- uiarg_src rhs ;;
       big_div Z.quot dst pl pr.

(** rounding towards +infinity, the meaning of IMath's impz_cdiv_q *)
Definition ceil_div (x y : Z) : Z := - ((- x) / y).

(** isl_sioimath_cdiv_q, isl_int_sioimath.h:903-928 *)
Definition cdiv_q (dst lhs rhs : Z) : M Z :=
  if is_small lhs && is_small rhs
  then
    let l := get_small lhs in let r := get_small rhs in
    q <- (if (0 <=? l) && (0 <=? r)
          then n <- chk64 (l + r - 1) ;; cdiv n r
          else if (l <? 0) && (r <? 0)
          then n <- chk64 (l + r + 1) ;; cdiv n r
          else cdiv l r) ;;
    set_small dst (s32 q)
  else pl <- bigarg_src lhs ;; pr <- bigarg_src rhs ;;
       big_div ceil_div dst pl pr.

(** isl_sioimath_cdiv_q_ui, isl_int_sioimath.h:933-953 *)
Definition cdiv_q_ui (dst lhs rhs : Z) : M Z :=
  if is_small lhs && (rhs <=? INT32_MAX)
  then
    let l := get_small lhs in
    q <- (if 0 <=? l
          then n <- chk64 (l + (s64 rhs - 1)) ;; cdiv n (s64 rhs)
          else cdiv l (s32 rhs)) ;;
    set_small dst (s32 q)
  else pl <- bigarg_src lhs ;; pr <- uiarg_src rhs ;;
       big_div ceil_div dst pl pr.

(** isl_sioimath_fdiv_q, isl_int_sioimath.h:957-982 *)
Definition fdiv_q (dst lhs rhs : Z) : M Z :=
  if is_small lhs && is_small rhs
  then
    let l := get_small lhs in let r := get_small rhs in
    q <- (if (l <? 0) && (0 <=? r)
          then n <- chk64 (l - (r - 1)) ;; cdiv n r
          else if (0 <=? l) && (r <? 0)
          then n <- chk64 (l - (r + 1)) ;; cdiv n r
          else cdiv l r) ;;
    set_small dst (s32 q)
  else pl <- bigarg_src lhs ;; pr <- bigarg_src rhs ;;
       big_div Z.div dst pl pr.

(** isl_sioimath_fdiv_q_ui, isl_int_sioimath.h:987-1007.
    (uint32_t) lhssmall / rhs is an unsigned long division. *)
Definition fdiv_q_ui (dst lhs rhs : Z) : M Z :=
  if is_small lhs && (rhs <=? INT32_MAX)
  then
    let l := get_small lhs in
    q <- (if 0 <=? l
          then cdiv (u32 l) rhs
          else n <- chk64 (l - (s64 rhs - 1)) ;; cdiv n (s64 rhs)) ;;
    set_small dst (s32 q)
  else pl <- bigarg_src lhs ;; pr <- uiarg_src rhs ;;
       big_div Z.div dst pl pr.

(** isl_sioimath_fdiv_r, isl_int_sioimath.h:1012-1031 *)
Definition fdiv_r (dst lhs rhs : Z) : M Z :=
  if is_small lhs && is_small rhs
  then
    let l := get_small lhs in let r := get_small rhs in
    m <- cmod l r ;; n <- chk64 (r + m) ;; q <- cmod n r ;;
    set_small dst (s32 q)
  else pl <- bigarg_src lhs ;; pr <- bigarg_src rhs ;;
       big_div Z.modulo dst pl pr.

(** C's (a > b) - (a < b) *)
Definition cmp3 (a b : Z) : Z :=
  (if a >? b then 1 else 0) - (if a <? b then 1 else 0).
(** IMath comparison functions return a number whose sign is the order; the
    model uses -1, 0, 1, as IMath does. *)
Definition mp_compare (a b : Z) : Z := cmp3 a b.

(** isl_sioimath_sgn, isl_int_sioimath.h:1040-1048 *)
Definition sgn (arg : Z) : M Z :=
  if is_small arg then ret (cmp3 (get_small arg) 0) else
  v <- deref (Ptr arg) ;; ret (mp_compare v 0).

(** isl_sioimath_cmp, isl_int_sioimath.h:1055-1074 *)
Definition cmp (lhs rhs : Z) : M Z :=
  if is_small lhs && is_small rhs
  then ret (cmp3 (get_small lhs) (get_small rhs))
  else if is_small rhs
  then p <- bigarg_src lhs ;; x <- deref p ;;
       ret (mp_compare x (get_small rhs))
  else if is_small lhs
  then p <- bigarg_src rhs ;; y <- deref p ;;
       ret (- mp_compare y (get_small lhs))
  else x <- deref (Ptr lhs) ;; y <- deref (Ptr rhs) ;;
       ret (mp_compare x y).

(** isl_sioimath_cmp_si, isl_int_sioimath.h:1078-1086 *)
Definition cmp_si (lhs rhs : Z) : M Z :=
  if is_small lhs then ret (cmp3 (get_small lhs) rhs) else
  x <- deref (Ptr lhs) ;; ret (mp_compare x rhs).

(** isl_sioimath_abs_cmp, isl_int_sioimath.h:1093-1108 *)
Definition abs_cmp (lhs rhs : Z) : M Z :=
  if is_small lhs && is_small rhs
  then a <- labs (get_small lhs) ;; b <- labs (get_small rhs) ;;
       ret (cmp3 (s32 a) (s32 b))
  else pl <- bigarg_src lhs ;; pr <- bigarg_src rhs ;;
       x <- deref pl ;; y <- deref pr ;;
       ret (mp_compare (Z.abs x) (Z.abs y)).

(** isl_sioimath_is_divisible_by, isl_int_sioimath.h:1114-1139 *)
Definition is_divisible_by (lhs rhs : Z) : M bool :=
  s <- sgn rhs ;;
  if s =? 0 then t <- sgn lhs ;; ret (t =? 0) else
  if is_small lhs && is_small rhs
  then m <- cmod (get_small lhs) (get_small rhs) ;; ret (m =? 0)
  else if is_small rhs
  then p <- bigarg_src lhs ;; x <- deref p ;;
       m <- cmod x (get_small rhs) ;; ret (m =? 0)
  else pl <- bigarg_src lhs ;; pr <- bigarg_src rhs ;;
       x <- deref pl ;; y <- deref pr ;;
       m <- cmod x y ;; ret (m =? 0).

(** isl_hash_byte, include/isl/hash.h:22-25, on uint32_t *)
Definition hash_byte (h b : Z) : Z := Z.lxor (u32 (h * 16777619)) b.
(** the bytes of a digit in memory, little-endian machine *)
Definition digit_bytes (d : Z) : list Z :=
  [d mod 256; Z.shiftr d 8 mod 256; Z.shiftr d 16 mod 256;
   Z.shiftr d 24 mod 256].
Definition hash_digits (h : Z) (ds : list Z) : Z :=
  fold_left hash_byte (flat_map digit_bytes ds) h.

(** isl_sioimath_hash, isl_int_sioimath.h:1145-1167, with
    isl_imath_hash, isl_imath.c:3-13, for the big case *)
Definition hash (arg h : Z) : M Z :=
  if is_small arg then
    let small := get_small arg in
    let h1 := if small <? 0 then hash_byte h 255 else h in
    n <- labs small ;;
    ret (hash_digits h1 (uint32_to_digits (u32 n)))
  else
    v <- deref (Ptr arg) ;;
    let h1 := if v <? 0 then hash_byte h 255 else h in
    ret (hash_digits h1 (digits_of (Z.abs v))).

(** isl_sioimath_sizeinbase, isl_int_sioimath.h:1176-1184, for base 2;
    impz_sizeinbase(v,2) is the number of bits of |v|, 1 for zero *)
Definition sizeinbase2 (arg : Z) : M Z :=
  if is_small arg then ret 31 else
  v <- deref (Ptr arg) ;;
  ret (if v =? 0 then 1 else Z.log2 (Z.abs v) + 1).

(** * Programs over isl_int variables
    The variables are a list of words; an operation names variables by
    position, so a destination may alias operands. *)
Inductive iop :=
| ISet (r i : nat) | ISetSi (r : nat) (c : Z) | ISetUi (r : nat) (c : Z)
| IAbs (r i : nat) | INeg (r i : nat) | ISwap (i j : nat)
| IAddUi (r i : nat) (c : Z) | ISubUi (r i : nat) (c : Z)
| IAdd (r i j : nat) | ISub (r i j : nat) | IMul (r i j : nat)
| IMul2exp (r i : nat) (c : Z) | IMulSi (r i : nat) (c : Z)
| IMulUi (r i : nat) (c : Z) | IPowUi (r i : nat) (c : Z)
| IAddmul (r i j : nat) | IAddmulUi (r i : nat) (c : Z)
| ISubmul (r i j : nat) | ISubmulUi (r i : nat) (c : Z)
| IGcd (r i j : nat) | ILcm (r i j : nat)
| ITdivQ (r i j : nat) | ITdivQUi (r i : nat) (c : Z)
| ICdivQ (r i j : nat) | ICdivQUi (r i : nat) (c : Z)
| IFdivQ (r i j : nat) | IFdivQUi (r i : nat) (c : Z)
| IFdivR (r i j : nat).

Definition vars := list Z.
Fixpoint lset {A} (l : list A) (n : nat) (x : A) : list A :=
  match l, n with
  | [], _ => []
  | _ :: t, O => x :: t
  | a :: t, S k => a :: lset t k x
  end.
Definition rd (s : vars) (i : nat) : Z := nth i s init.

(** the macros of isl_int_sioimath.h:1189-1252 that modify a variable *)
Definition iexec (o : iop) (s : vars) : M vars :=
  let wr r (m : M Z) := w <- m ;; ret (lset s r w) in
  match o with
  | ISet r i => wr r (set (rd s r) (rd s i))
  | ISetSi r c => wr r (set_si (rd s r) c)
  | ISetUi r c => wr r (set_ui (rd s r) c)
  | IAbs r i => wr r (abs (rd s r) (rd s i))
  | INeg r i => wr r (neg (rd s r) (rd s i))
  | ISwap i j => ret (lset (lset s i (rd s j)) j (rd s i))
  | IAddUi r i c => wr r (add_ui (rd s r) (rd s i) c)
  | ISubUi r i c => wr r (sub_ui (rd s r) (rd s i) c)
  | IAdd r i j => wr r (add (rd s r) (rd s i) (rd s j))
  | ISub r i j => wr r (sub (rd s r) (rd s i) (rd s j))
  | IMul r i j => wr r (mul (rd s r) (rd s i) (rd s j))
  | IMul2exp r i c => wr r (mul_2exp (rd s r) (rd s i) c)
  | IMulSi r i c => wr r (mul_si (rd s r) (rd s i) c)
  | IMulUi r i c => wr r (mul_ui (rd s r) (rd s i) c)
  | IPowUi r i c => wr r (pow_ui (rd s r) (rd s i) c)
  | IAddmul r i j => wr r (addmul (rd s r) (rd s i) (rd s j))
  | IAddmulUi r i c => wr r (addmul_ui (rd s r) (rd s i) c)
  | ISubmul r i j => wr r (submul (rd s r) (rd s i) (rd s j))
  | ISubmulUi r i c => wr r (submul_ui (rd s r) (rd s i) c)
  | IGcd r i j => wr r (gcd (rd s r) (rd s i) (rd s j))
  | ILcm r i j => wr r (lcm (rd s r) (rd s i) (rd s j))
  | ITdivQ r i j => wr r (tdiv_q (rd s r) (rd s i) (rd s j))
  | ITdivQUi r i c => wr r (tdiv_q_ui (rd s r) (rd s i) c)
  | ICdivQ r i j => wr r (cdiv_q (rd s r) (rd s i) (rd s j))
  | ICdivQUi r i c => wr r (cdiv_q_ui (rd s r) (rd s i) c)
  | IFdivQ r i j => wr r (fdiv_q (rd s r) (rd s i) (rd s j))
  | IFdivQUi r i c => wr r (fdiv_q_ui (rd s r) (rd s i) c)
  | IFdivR r i j => wr r (fdiv_r (rd s r) (rd s i) (rd s j))
  end.

Fixpoint iexec_all (os : list iop) (s : vars) : M vars :=
  match os with
  | [] => ret s
  | o :: os' => s' <- iexec o s ;; iexec_all os' s'
  end.

End Alloc.

(** isl_int_clear applied to every variable *)
Fixpoint clear_all (s : vars) : M unit :=
  match s with
  | [] => ret tt
  | w :: s' => _u <- clear w ;; clear_all s'
  end.
