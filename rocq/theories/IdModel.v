(** Model of isl_id.c: identifiers interned in the hash table of the context.

    Pointers are numbers; the address returned by malloc is an argument of the
    allocating operation ([None] when malloc fails), so that addresses of freed
    identifiers may be reused.  The heap maps an address to the isl_id stored
    there.  The call of a free_user callback is recorded in a log.  Undefined
    behaviour (access to a freed isl_id) is [None]. *)
From Coq Require Import ZArith List Bool.
From Verif Require Import HashModel.
Import ListNotations.
Open Scope Z_scope.

(** isl_hash_init and isl_hash_byte, include/isl/hash.h:21-25; the byte is a
    (signed) char that is converted to uint32_t *)
Definition hash_init : Z := 2166136261.
Definition hash_byte (h b : Z) : Z := Z.lxor ((h * 16777619) mod 2 ^ 32) (b mod 2 ^ 32).
(** isl_hash_string, isl_hash.c:15-20, and isl_hash_mem, isl_hash.c:22-29, on
    the characters of a string without the final 0, resp. on a memory region *)
Definition hash_chars (h : Z) (s : list Z) : Z := fold_left hash_byte s h.
(** the bytes of a (little endian, 64 bit) pointer as signed chars *)
Definition signed_char (b : Z) : Z := if b <? 128 then b else b - 256.
Fixpoint ptr_bytes (n : nat) (p : Z) : list Z :=
  match n with O => [] | S n' => signed_char (p mod 256) :: ptr_bytes n' (p / 256) end.

(** struct isl_name_and_user, isl_id.c:78-81; the name is [None] for NULL and
    a string of chars otherwise, the user pointer is a number (0 is NULL) *)
Definition nukey : Type := (option (list Z) * Z)%type.
(** the hash of an isl_id: id_alloc, isl_id.c:46-71, and
    isl_id_alloc, isl_id.c:100-124 *)
Definition id_hash (k : nukey) : Z :=
  match fst k with
  | Some s => hash_chars hash_init s
  | None => hash_chars hash_init (ptr_bytes 8 (snd k))
  end.
(** struct isl_id, isl_id_private.h:20-29; [free_user] is 0 for NULL *)
Record idrec := mkid { ref : Z; nu : nukey; hash : Z; free_user : Z }.

Definition str_eqb (a b : list Z) : bool :=
  (fix go a b := match a, b with
                 | [], [] => true
                 | x :: a', y :: b' => (x =? y) && go a' b'
                 | _, _ => false
                 end) a b.
(** isl_id_has_name_and_user, isl_id.c:85-98; strings are compared by contents *)
Definition has_name_and_user (id : idrec) (k : nukey) : bool :=
  if negb (snd (nu id) =? snd k) then false
  else match fst (nu id), fst k with
       | None, None => true
       | Some a, Some b => str_eqb a b
       | _, _ => false
       end.

Record istate := mki { heap : nat -> option idrec; tbl : table nat; log : list (Z * Z) }.
Definition hupd (h : nat -> option idrec) (a : nat) (o : option idrec) : nat -> option idrec :=
  fun b => if Nat.eqb b a then o else h b.

(** what a lookup in the table does with an address: dereferencing a freed
    identifier is undefined and modelled by the error result, which the
    theorems exclude *)
Definition at_id (h : nat -> option idrec) (f : idrec -> bool) (a : nat) : option bool :=
  match h a with Some id => Some (f id) | None => None end.

(** isl_id_copy, isl_id.c:129-139 (dynamically allocated identifiers) *)
Definition id_copy (s : istate) (a : nat) : option (nat * istate) :=
  match heap s a with
  | None => None
  | Some id =>
    if ref id <? 0 then Some (a, s)
    else Some (a, mki (hupd (heap s) a (Some (mkid (ref id + 1) (nu id) (hash id) (free_user id)))) (tbl s) (log s))
  end.
(** isl_id_alloc, isl_id.c:100-124, and id_alloc, isl_id.c:46-71; [m] is what
    malloc returns, [grow] tells whether growing the table succeeds.  The result
    is NULL or an address *)
Definition id_alloc (s : istate) (k : nukey) (m : option nat) (grow : bool) : option (option nat * istate) :=
  match find 3 grow (tbl s) (id_hash k) (at_id (heap s) (fun id => has_name_and_user id k)) true with
  | (FEntry h, t) =>
    match eget (ents t) h with
    | (_, Some a) => match id_copy (mki (heap s) t (log s)) a with
                     | Some (a, s') => Some (Some a, s')
                     | None => None
                     end
    | (hs, None) =>
      match m with
      | None => Some (None, mki (heap s) (mkt (bits t) (cnt t - 1) (ents t)) (log s))
      | Some a => Some (Some a, mki (hupd (heap s) a (Some (mkid 1 k (id_hash k) 0)))
                                    (mkt (bits t) (cnt t) (eset (ents t) h (hs, Some a))) (log s))
      end
    end
  | (FNull, t) => Some (None, mki (heap s) t (log s))
  | _ => None
  end.
(** isl_id_set_free_user, isl_id.c:183-192 *)
Definition id_set_free_user (s : istate) (a : nat) (f : Z) : option istate :=
  match heap s a with
  | None => None
  | Some id => Some (mki (hupd (heap s) a (Some (mkid (ref id) (nu id) (hash id) f))) (tbl s) (log s))
  end.
(** isl_id_free, isl_id.c:207-238 *)
Definition id_free (s : istate) (a : nat) : option istate :=
  match heap s a with
  | None => None
  | Some id =>
    if ref id <? 0 then Some s
    else
      let id := mkid (ref id - 1) (nu id) (hash id) (free_user id) in
      if 0 <? ref id then Some (mki (hupd (heap s) a (Some id)) (tbl s) (log s))
      else
        let h := hupd (heap s) a (Some id) in
        let fin t := Some (mki (hupd h a None) t
               (if free_user id =? 0 then log s else log s ++ [(free_user id, snd (nu id))])) in
        match find 3 true (tbl s) (hash id) (fun b => Some (Nat.eqb b a)) false with
        | (FNull, t) => Some (mki h t (log s))
        | (FNone, t) => fin t
        | (FEntry e, t) => match remove t e with Some t => fin t | None => None end
        | _ => None
        end
  end.
(** isl_id_cmp, isl_id.c:147-166, on addresses of identifiers ([None] is NULL);
    strcmp on the chars as unsigned char *)
Fixpoint strcmp (a b : list Z) : Z :=
  match a, b with
  | [], [] => 0
  | [], _ :: _ => -1
  | _ :: _, [] => 1
  | x :: a', y :: b' => if x =? y then strcmp a' b'
                        else if (x mod 256) <? (y mod 256) then -1 else 1
  end.
Definition id_cmp (h : nat -> option idrec) (p q : option nat) : option Z :=
  match p, q with
  | None, None => Some 0
  | None, Some _ => Some (-1)
  | Some _, None => Some 1
  | Some a, Some b =>
    if Nat.eqb a b then Some 0
    else match h a, h b with
         | Some i, Some j =>
           let n1 := match fst (nu i) with None => 1 | Some _ => 0 end in
           let n2 := match fst (nu j) with None => 1 | Some _ => 0 end in
           if negb (n1 =? n2) then Some (n1 - n2)
           else
             let c := match fst (nu i), fst (nu j) with Some x, Some y => strcmp x y | _, _ => 0 end in
             if negb (c =? 0) then Some c
             else if snd (nu i) <? snd (nu j) then Some (-1) else Some 1
         | _, _ => None
         end
  end.

(** ** Clients *)
Inductive iop :=
| IAlloc (k : nukey) (m : option nat) (grow : bool)
| ICopy (a : nat) | IFree (a : nat) | ISetFree (a : nat) (f : Z).
Definition iexec (o : iop) (s : istate) : option (option nat * istate) :=
  match o with
  | IAlloc k m grow => id_alloc s k m grow
  | ICopy a => match id_copy s a with Some (a, s) => Some (Some a, s) | None => None end
  | IFree a => match id_free s a with Some s => Some (None, s) | None => None end
  | ISetFree a f => match id_set_free_user s a f with Some s => Some (Some a, s) | None => None end
  end.
Fixpoint iexec_all (os : list iop) (s : istate) : option (list (option nat) * istate) :=
  match os with
  | [] => Some ([], s)
  | o :: os' => match iexec o s with
                | None => None
                | Some (r, s') => match iexec_all os' s' with
                                  | None => None
                                  | Some (rs, s'') => Some (r :: rs, s'')
                                  end
                end
  end.
(** the state of a new context: isl_ctx_alloc_with_options, isl_ctx.c:196-259 *)
Definition iinit : istate := mki (fun _ => None) (table_init 0) [].
