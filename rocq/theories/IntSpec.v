(** Specification of isl_int programs: variables hold mathematical integers.
    Independent of the representation (only the operation names are shared). *)
From Coq Require Import ZArith List Bool.
From Verif Require Import IntModel.
Import ListNotations.
Open Scope Z_scope.

Definition is_ulong (c : Z) : bool := (0 <=? c) && (c <? 2 ^ 64).
Definition is_slong (c : Z) : bool := (- 2 ^ 63 <=? c) && (c <? 2 ^ 63).

(** [Some] of the new variable contents; [None] if the operation is outside its
    contract (variable out of range, C argument outside its type, division by
    zero). [get] and [put] read and write a variable. *)
Definition ispec (o : iop) (env : list Z) : option (list Z) :=
  let n := length env in
  let get i := nth i env 0 in
  let put r v := lset env r v in
  let ok (l : list nat) := forallb (fun i => Nat.ltb i n) l in
  let when (b : bool) (e : list Z) := if b then Some e else None in
  match o with
  | ISet r i => when (ok [r; i]) (put r (get i))
  | ISetSi r c => when (ok [r] && is_slong c) (put r c)
  | ISetUi r c => when (ok [r] && is_ulong c) (put r c)
  | IAbs r i => when (ok [r; i]) (put r (Z.abs (get i)))
  | INeg r i => when (ok [r; i]) (put r (- get i))
  | ISwap i j => when (ok [i; j]) (lset (lset env i (get j)) j (get i))
  | IAddUi r i c => when (ok [r; i] && is_ulong c) (put r (get i + c))
  | ISubUi r i c => when (ok [r; i] && is_ulong c) (put r (get i - c))
  | IAdd r i j => when (ok [r; i; j]) (put r (get i + get j))
  | ISub r i j => when (ok [r; i; j]) (put r (get i - get j))
  | IMul r i j => when (ok [r; i; j]) (put r (get i * get j))
  | IMul2exp r i c => when (ok [r; i] && is_ulong c) (put r (get i * 2 ^ c))
  | IMulSi r i c => when (ok [r; i] && is_slong c) (put r (get i * c))
  | IMulUi r i c => when (ok [r; i] && is_ulong c) (put r (get i * c))
  | IPowUi r i c => when (ok [r; i] && is_ulong c) (put r (get i ^ c))
  | IAddmul r i j => when (ok [r; i; j]) (put r (get r + get i * get j))
  | IAddmulUi r i c => when (ok [r; i] && is_ulong c) (put r (get r + get i * c))
  | ISubmul r i j => when (ok [r; i; j]) (put r (get r - get i * get j))
  | ISubmulUi r i c => when (ok [r; i] && is_ulong c) (put r (get r - get i * c))
  | IGcd r i j => when (ok [r; i; j]) (put r (Z.gcd (get i) (get j)))
  | ILcm r i j => when (ok [r; i; j]) (put r (Z.lcm (get i) (get j)))
  | ITdivQ r i j =>
      when (ok [r; i; j] && negb (get j =? 0)) (put r (Z.quot (get i) (get j)))
  | ITdivQUi r i c =>
      when (ok [r; i] && is_ulong c && negb (c =? 0)) (put r (Z.quot (get i) c))
  | ICdivQ r i j =>
      when (ok [r; i; j] && negb (get j =? 0)) (put r (- (- get i / get j)))
  | ICdivQUi r i c =>
      when (ok [r; i] && is_ulong c && negb (c =? 0)) (put r (- (- get i / c)))
  | IFdivQ r i j =>
      when (ok [r; i; j] && negb (get j =? 0)) (put r (get i / get j))
  | IFdivQUi r i c =>
      when (ok [r; i] && is_ulong c && negb (c =? 0)) (put r (get i / c))
  | IFdivR r i j =>
      when (ok [r; i; j] && negb (get j =? 0)) (put r (get i mod get j))
  end.

Fixpoint ispec_all (os : list iop) (env : list Z) : option (list Z) :=
  match os with
  | [] => Some env
  | o :: os' => match ispec o env with
                | Some env' => ispec_all os' env'
                | None => None
                end
  end.

(** the operations whose implementation is exact for every argument: all of
    them, except that isl_int_sub_ui is only exact for subtrahends up to
    2^63 - 2^31 + 1 (see C04) *)
Definition sub_ui_small (o : iop) : bool :=
  match o with
  | ISubUi _ _ c => c <=? 2 ^ 63 - 2 ^ 31 + 1
  | _ => true
  end.

(** What a word denotes in a heap. *)
Definition denotes (h : heap) (w z : Z) : Prop :=
  if is_small w then z = get_small w /\ - 2 ^ 31 < z < 2 ^ 31
  else h w = Some z.

(** A store of variables represents an environment of integers: every
    variable denotes its integer, no two variables share a big number, and
    every allocated big number belongs to some variable (nothing leaks). *)
Record represents (h : heap) (s : vars) (env : list Z) : Prop := {
  rep_len : length s = length env;
  rep_val : forall i, (i < length s)%nat -> denotes h (nth i s init) (nth i env 0);
  rep_sep : forall i j, (i < length s)%nat -> (j < length s)%nat ->
      is_big (nth i s init) = true -> nth i s init = nth j s init -> i = j;
  rep_own : forall a, h a <> None ->
      exists i, (i < length s)%nat /\ nth i s init = a /\ is_big a = true
}.

(** What is assumed about mp_int_alloc: when it succeeds it returns an
    unallocated, even, non-null 64-bit address. *)
Definition alloc_spec (alloc : heap -> option Z) : Prop :=
  forall h a, alloc h = Some a ->
    h a = None /\ Z.even a = true /\ 0 < a < 2 ^ 64.
