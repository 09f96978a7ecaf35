(** What identifiers are required to do.  The state only records, for every
    address, the identifier that lives there: its name and user pointer, the
    number of references and the free_user callback; and the calls of
    callbacks made so far. *)
From Coq Require Import ZArith List.
From Verif Require Import IdModel.
Import ListNotations.
Open Scope Z_scope.

Record srec := mks { skey : option (list Z) * Z; srefs : Z; sfree : Z }.
Record sst := mkst { live : nat -> option srec; calls : list (Z * Z) }.
Definition lupdate (f : nat -> option srec) (a : nat) (o : option srec) : nat -> option srec :=
  fun b => if Nat.eq_dec b a then o else f b.

(** one operation, its result and its effect *)
Inductive sstep : iop -> sst -> option nat -> sst -> Prop :=
| SHit k m g a r S :            (* there is a live identifier for this pair: it is returned *)
    live S a = Some r -> skey r = k ->
    sstep (IAlloc k m g) S (Some a)
      (mkst (lupdate (live S) a (Some (mks k (srefs r + 1) (sfree r)))) (calls S))
| SNew k a g S :                (* otherwise a new one with one reference *)
    (forall b r, live S b = Some r -> skey r <> k) ->
    sstep (IAlloc k (Some a) g) S (Some a)
      (mkst (lupdate (live S) a (Some (mks k 1 0))) (calls S))
| SNull k m g S :               (* unless memory is exhausted *)
    (forall b r, live S b = Some r -> skey r <> k) -> m = None \/ g = false ->
    sstep (IAlloc k m g) S None S
| SCopy a r S :
    live S a = Some r ->
    sstep (ICopy a) S (Some a)
      (mkst (lupdate (live S) a (Some (mks (skey r) (srefs r + 1) (sfree r)))) (calls S))
| SSetFree a f r S :
    live S a = Some r ->
    sstep (ISetFree a f) S (Some a)
      (mkst (lupdate (live S) a (Some (mks (skey r) (srefs r) f))) (calls S))
| SRelease a r S :              (* a reference that is not the last one *)
    live S a = Some r -> 1 < srefs r ->
    sstep (IFree a) S None
      (mkst (lupdate (live S) a (Some (mks (skey r) (srefs r - 1) (sfree r)))) (calls S))
| SLast a r S :                 (* the last reference: the callback is called on the user pointer *)
    live S a = Some r -> srefs r = 1 ->
    sstep (IFree a) S None
      (mkst (lupdate (live S) a None)
            (calls S ++ (if Z.eq_dec (sfree r) 0 then [] else [(sfree r, snd (skey r))]))).

(** states are compared pointwise *)
Definition seq (S T : sst) : Prop := (forall a, live S a = live T a) /\ calls S = calls T.
Definition step (o : iop) (S : sst) (r : option nat) (S' : sst) : Prop :=
  exists T, sstep o S r T /\ seq T S'.
Inductive sruns : list iop -> sst -> list (option nat) -> sst -> Prop :=
| SNil S : sruns [] S [] S
| SCons o os S r S' rs S'' : step o S r S' -> sruns os S' rs S'' -> sruns (o :: os) S (r :: rs) S''.

(** what clients must respect: only use identifiers that are alive.  The
    address returned by malloc is not in use, and there are fewer than
    [2^29 - 1] identifiers *)
Definition sok (o : iop) (S : sst) : Prop :=
  match o with
  | IAlloc k m g =>
    (forall a, m = Some a -> live S a = None) /\
    exists l, NoDup l /\ (forall a, live S a <> None <-> In a l) /\ Z.of_nat (length l) < 2 ^ 29 - 1
  | ICopy a | IFree a | ISetFree a _ => live S a <> None
  end.
Fixpoint svalid (os : list iop) (S : sst) : Prop :=
  match os with
  | [] => True
  | o :: os' => sok o S /\ forall r S', step o S r S' -> svalid os' S'
  end.
Definition sinit : sst := mkst (fun _ => None) [].

(** the identifiers stored in a state of the model *)
Definition abs_rec (id : idrec) : srec := mks (nu id) (ref id) (free_user id).
Definition abs (s : istate) : sst := mkst (fun a => option_map abs_rec (heap s a)) (log s).
(** names are strings of chars *)
Definition key_ok (k : option (list Z) * Z) : Prop :=
  match fst k with Some s => Forall (fun c => -128 <= c < 128) s | None => True end.
