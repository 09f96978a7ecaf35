(** Model of isl_hash.c: open-addressing hash table with linear probing.

    A table entry is a 32-bit hash and an optional datum ([None] is the NULL
    pointer).  Results distinguish NULL (error), undefined behaviour (signed
    overflow) and non-termination of a probe loop; the theorems exclude the
    last two.  Memory allocation is represented by a flag saying whether
    isl_calloc_array succeeds. *)
From Coq Require Import ZArith List Bool.
Import ListNotations.
Open Scope Z_scope.

(** struct isl_hash_table_entry, include/isl/hash.h:44-48 *)
Definition entry (D : Type) : Type := (Z * option D)%type.
(** struct isl_hash_table, include/isl/hash.h:50-54 *)
Record table (D : Type) := mkt { bits : Z; cnt : Z; ents : list (entry D) }.
Arguments mkt {D}. Arguments bits {D}. Arguments cnt {D}. Arguments ents {D}.

(** [table->entries[h]] *)
Definition eget {D} (es : list (entry D)) (h : Z) : entry D := nth (Z.to_nat h) es (0, None).
(** [table->entries[h] = e] *)
Fixpoint lupd {A} (l : list A) (i : nat) (a : A) : list A :=
  match l, i with
  | [], _ => []
  | _ :: t, O => a :: t
  | x :: t, S i' => x :: lupd t i' a
  end.
Definition eset {D} (es : list (entry D)) (h : Z) (e : entry D) : list (entry D) :=
  lupd es (Z.to_nat h) e.

(** isl_hash_bits, include/isl/hash.h:32-36; [h] is a uint32_t *)
Definition hash_bits (h bits : Z) : Z :=
  if bits =? 32 then h
  else if 16 <=? bits then Z.lxor (h / 2 ^ bits) (Z.land h (2 ^ bits - 1))
  else Z.land (Z.lxor (h / 2 ^ bits) h) (2 ^ bits - 1).

(** [size = 1 << table->bits]; shifting an int by 31 or more is undefined *)
Definition size_ok (bits : Z) : bool := bits <? 31.
Definition tsize {D} (t : table D) : Z := 2 ^ bits t.

(** round_up, isl_hash.c:31-40, on unsigned int; [fuel] bounds the number of
    set bits *)
Fixpoint round_up_loop (fuel : nat) (v old_v : Z) : Z :=
  match fuel with
  | O => old_v
  | S f => if v =? 0 then old_v else round_up_loop f (Z.lxor v (Z.land v (- v))) v
  end.
(** round_up, isl_hash.c:31-40 *)
Definition round_up (v : Z) : Z := (2 * round_up_loop 32 v v) mod 2 ^ 32.
(** ffs(3): one plus the index of the least significant set bit *)
Fixpoint ffs_pos (p : positive) : Z :=
  match p with xH => 1 | xO p' => 1 + ffs_pos p' | xI _ => 1 end.
Definition ffs (v : Z) : Z := match v with Zpos p => ffs_pos p | _ => 0 end.

(** isl_hash_table_init, isl_hash.c:42-62, when the allocation succeeds *)
Definition table_init {D} (min_size : Z) : table D :=
  let min_size := if min_size <? 2 then 2 else min_size in
  let bits := ffs (round_up (4 * (min_size + 1) / 3 - 1)) - 1 in
  mkt bits 0 (repeat (0, None) (Z.to_nat (2 ^ bits))).

(** result of isl_hash_table_find: a pointer to an entry (its index),
    isl_hash_table_entry_none, NULL, undefined behaviour, divergence *)
Inductive fres := FEntry (h : Z) | FNone | FNull | FUB | FDiv.

(** result of the probe loop *)
Inductive pres := PFound (h : Z) | PEmpty (h : Z) | PErr | PDiv.
(** the probe loop of isl_hash_table_find, isl_hash.c:165-175.
    [eq] returns [None] on error.  The loop visits at most [size] different
    entries, so running out of fuel [size] means that it does not terminate *)
Fixpoint probe {D} (fuel : nat) (es : list (entry D)) (size h key_hash : Z)
    (eq : D -> option bool) : pres :=
  match fuel with
  | O => PDiv
  | S f =>
    match eget es h with
    | (_, None) => PEmpty h
    | (hs, Some d) =>
      if negb (hs =? key_hash) then probe f es size ((h + 1) mod size) key_hash eq
      else match eq d with
           | None => PErr
           | Some true => PFound h
           | Some false => probe f es size ((h + 1) mod size) key_hash eq
           end
    end
  end.

(** the loop of grow_table, isl_hash.c:101-119, over the old entries [es];
    [find] is isl_hash_table_find with eq == &no and reserve == 1 *)
Fixpoint grow_loop {D} (find : table D -> Z -> fres * table D) (es : list (entry D)) (t : table D) :
    fres * table D :=
  match es with
  | [] => (FNone, t)
  | (hs, None) :: es' => grow_loop find es' t
  | (hs, Some d) :: es' =>
    match find t hs with
    | (FEntry h, t') => grow_loop find es' (mkt (bits t') (cnt t') (eset (ents t') h (hs, Some d)))
    | r => r
    end
  end.

(** isl_hash_table_find, isl_hash.c:157-193.  [fuel] bounds the depth of the
    mutual recursion with grow_table (isl_hash.c:81-124); [alloc] tells
    whether the allocation in grow_table succeeds. *)
Fixpoint find {D} (fuel : nat) (alloc : bool) (t : table D) (key_hash : Z)
    (eq : D -> option bool) (reserve : bool) : fres * table D :=
  match fuel with
  | O => (FDiv, t)
  | S f =>
    if negb (size_ok (bits t)) then (FUB, t)
    else
    match probe (Z.to_nat (tsize t)) (ents t) (tsize t) (hash_bits key_hash (bits t)) key_hash eq with
    | PDiv => (FDiv, t)
    | PErr => (FNull, t)
    | PFound h => (FEntry h, t)
    | PEmpty h =>
      if negb reserve then (FNone, t)
      else if 2 ^ 31 <=? 4 * cnt t then (FUB, t) (* int overflow *)
      else if 3 * tsize t <=? 4 * cnt t then
        (* grow_table *)
        if negb alloc then (FNull, t)
        else
          let t0 := mkt (bits t + 1) 0 (repeat (0, None) (Z.to_nat (2 * tsize t))) in
          match grow_loop (fun t hs => find f alloc t hs (fun _ => Some false) true) (ents t) t0 with
          | (FNone, t') => find f alloc t' key_hash eq true
          | (FNull, _) => (FNull, t)
          | (r, t') => (r, t')
          end
      else (FEntry h, mkt (bits t) (cnt t + 1) (eset (ents t) h (key_hash, snd (eget (ents t) h))))
    end
  end.

(** isl_hash_table_first, isl_hash.c:199-213; the datum of the first entry *)
Definition table_first {D} (t : table D) : option D :=
  hd_error (flat_map (fun e : entry D => match snd e with Some d => [d] | None => [] end) (ents t)).

(** isl_hash_table_foreach, isl_hash.c:215-231, with a callback that records
    its argument and succeeds *)
Definition foreach_list {D} (t : table D) : list D :=
  flat_map (fun e : entry D => match snd e with Some d => [d] | None => [] end) (ents t).

(** isl_hash_table_foreach, isl_hash.c:215-231, with a callback that may
    update its state [S] and fail *)
Fixpoint foreach_loop {D S} (es : list (entry D)) (fn : D -> S -> option S) (s : S) : option S :=
  match es with
  | [] => Some s
  | (_, None) :: es' => foreach_loop es' fn s
  | (_, Some d) :: es' => match fn d s with None => None | Some s' => foreach_loop es' fn s' end
  end.

(** the loop of isl_hash_table_remove, isl_hash.c:246-255; [h] and [h2] are
    ints that are not reduced modulo [size] *)
Fixpoint remove_loop {D} (fuel : nat) (bits size : Z) (es : list (entry D)) (h h2 : Z) :
    option (list (entry D) * Z) :=
  match fuel with
  | O => None
  | S f =>
    match eget es (h2 mod size) with
    | (_, None) => Some (es, h)
    | (hs, Some d) =>
      let b := hash_bits hs bits in
      let offset := ((size + b - (h + 1)) mod 2 ^ 64) mod size in
      if offset <=? h2 - (h + 1) then remove_loop f bits size es h (h2 + 1)
      else remove_loop f bits size (eset es (h mod size) (hs, Some d)) h2 (h2 + 1)
    end
  end.
(** isl_hash_table_remove, isl_hash.c:233-260; [h] is the index of the entry *)
Definition remove {D} (t : table D) (h : Z) : option (table D) :=
  if negb ((0 <=? h) && (h <? tsize t)) then Some t
  else match remove_loop (Z.to_nat (tsize t)) (bits t) (tsize t) (ents t) h (h + 1) with
       | None => None
       | Some (es, h) => Some (mkt (bits t) (cnt t - 1) (eset es (h mod tsize t) (0, None)))
       end.

(** ** A client of the table.  The data are identified by a key; [hashf] is
    the client's hash function, [keqb] its equality test. *)
Inductive hop (K D : Type) :=
| OFind (k : K)
| OInsert (d : D) (alloc : bool)
| ORemove (k : K)
| OForeach.
Arguments OFind {K D}. Arguments OInsert {K D}. Arguments ORemove {K D}. Arguments OForeach {K D}.
Inductive hresult (D : Type) := RData (d : option D) | RNull | RList (l : list D) | RUB | RDiv.
Arguments RData {D}. Arguments RNull {D}. Arguments RList {D}. Arguments RUB {D}. Arguments RDiv {D}.

(** the usage pattern of the table throughout the library, e.g.
    isl_id_alloc, isl_id.c:100-124, and isl_id_free, isl_id.c:207-238:
    find with reserve, fill in the data if it is NULL; find without reserve
    and remove *)
Definition hexec {K D} (key : D -> K) (keqb : K -> K -> bool) (hashf : K -> Z)
    (o : hop K D) (t : table D) : hresult D * table D :=
  match o with
  | OFind k =>
    match find 3 true t (hashf k) (fun d => Some (keqb (key d) k)) false with
    | (FEntry h, t') => (RData (snd (eget (ents t') h)), t')
    | (FNone, t') => (RData None, t')
    | (FNull, t') => (RNull, t') | (FUB, t') => (RUB, t') | (FDiv, t') => (RDiv, t')
    end
  | OInsert d alloc =>
    match find 3 alloc t (hashf (key d)) (fun d' => Some (keqb (key d') (key d))) true with
    | (FEntry h, t') =>
      match eget (ents t') h with
      | (_, Some d') => (RData (Some d'), t')
      | (hs, None) => (RData (Some d), mkt (bits t') (cnt t') (eset (ents t') h (hs, Some d)))
      end
    | (FNone, t') => (RNull, t')
    | (FNull, t') => (RNull, t') | (FUB, t') => (RUB, t') | (FDiv, t') => (RDiv, t')
    end
  | ORemove k =>
    match find 3 true t (hashf k) (fun d => Some (keqb (key d) k)) false with
    | (FEntry h, t') =>
      let d := snd (eget (ents t') h) in
      match remove t' h with Some t'' => (RData d, t'') | None => (RDiv, t') end
    | (FNone, t') => (RData None, t')
    | (FNull, t') => (RNull, t') | (FUB, t') => (RUB, t') | (FDiv, t') => (RDiv, t')
    end
  | OForeach => (RList (foreach_list t), t)
  end.
Fixpoint hexec_all {K D} (key : D -> K) keqb hashf (os : list (hop K D)) (t : table D) :
    list (hresult D) * table D :=
  match os with
  | [] => ([], t)
  | o :: os' => let '(r, t') := hexec key keqb hashf o t in
                let '(rs, t'') := hexec_all key keqb hashf os' t' in (r :: rs, t'')
  end.
