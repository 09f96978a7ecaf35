(** Model of isl_list_templ.c: reference-counted lists of reference-counted
    elements, with copy-on-write.

    The heap is a list of cells indexed by address; a freed cell is [None] and
    addresses are never reused.  Any access to a freed or mistyped cell and any
    store past the capacity of the array is [None] (undefined behaviour).  The
    loops that shift the pointers inside an array are collapsed.  Memory allocation always succeeds;
    realloc returns the same address.  The elements are a generic isl object:
    a reference count and a value that is changed by copy-on-write. *)
From Coq Require Import ZArith List Bool Arith.
Import ListNotations.
Open Scope Z_scope.

Notation addr := nat (only parsing).
(** struct EL (any isl object: a reference count and a payload) and
    LIST(EL), isl_list_templ.h:6-14 ([n] is the length of [p]) *)
Inductive obj :=
| OEl (ref : Z) (v : Z)
| OList (ref : Z) (size : Z) (p : list (option addr)).
Definition heap := list (option obj).
Definition hget (h : heap) (a : addr) : option obj := nth a h None.
Fixpoint lset {A} (l : list A) (i : nat) (x : A) : list A :=
  match l, i with
  | [], _ => []
  | _ :: t, O => x :: t
  | y :: t, S i' => y :: lset t i' x
  end.
Definition hset (h : heap) (a : addr) (o : option obj) : heap := lset h a o.
(** malloc *)
Definition halloc (h : heap) (o : obj) : addr * heap := (length h, h ++ [Some o]).

(** computations with undefined behaviour *)
Definition M (A : Type) := heap -> option (A * heap).
Definition ret {A} (a : A) : M A := fun h => Some (a, h).
Definition bind {A B} (m : M A) (f : A -> M B) : M B :=
  fun h => match m h with None => None | Some (a, h') => f a h' end.
Notation "'let?' x := m 'in' k" := (bind m (fun x => k)) (at level 200, x binder, right associativity).
Definition ub {A} : M A := fun _ => None.

(** FN(EL,alloc), FN(EL,copy), FN(EL,free): the pattern of e.g. isl_val_alloc,
    isl_val_copy and isl_val_free, isl_val.c:263-276,190-199,255-268 *)
Definition el_alloc (v : Z) : M (option addr) :=
  fun h => let '(a, h') := halloc h (OEl 1 v) in Some (Some a, h').
Definition el_copy (e : option addr) : M (option addr) :=
  match e with
  | None => ret None
  | Some a => fun h => match hget h a with
                       | Some (OEl r v) => Some (Some a, hset h a (Some (OEl (r + 1) v)))
                       | _ => None
                       end
  end.
Definition el_free (e : option addr) : M unit :=
  match e with
  | None => ret tt
  | Some a => fun h => match hget h a with
                       | Some (OEl r v) =>
                         Some (tt, hset h a (if 0 <? r - 1 then Some (OEl (r - 1) v) else None))
                       | _ => None
                       end
  end.
(** an operation that modifies an element: FN(EL,cow) followed by an update,
    e.g. isl_val_cow, isl_val.c:250-259.  [f] returns [None] on error, in which
    case the element is freed and NULL is returned *)
Definition el_modify (f : Z -> option Z) (e : option addr) : M (option addr) :=
  match e with
  | None => ret None
  | Some a => fun h => match hget h a with
                       | Some (OEl r v) =>
                         match f v with
                         | None => bind (el_free e) (fun _ => ret None) h
                         | Some v' =>
                           if r =? 1 then Some (Some a, hset h a (Some (OEl r v')))
                           else let h := hset h a (Some (OEl (r - 1) v)) in
                                el_alloc v' h
                         end
                       | _ => None
                       end
  end.

(** reading the fields of a list *)
Definition with_list {A} (l : addr) (k : Z -> Z -> list (option addr) -> M A) : M A :=
  fun h => match hget h l with
           | Some (OList r s p) => k r s p h
           | _ => None
           end.
Definition put_list (l : addr) (r s : Z) (p : list (option addr)) : M unit :=
  fun h => match hget h l with
           | Some (OList _ _ _) => Some (tt, hset h l (Some (OList r s p)))
           | _ => None
           end.
Definition len {A} (p : list A) : Z := Z.of_nat (length p).

(** FN(LIST(EL),alloc), isl_list_templ.c:30-49 *)
Definition list_alloc (n : Z) : M (option addr) :=
  if n <? 0 then ret None
  else fun h => let '(a, h') := halloc h (OList 1 n []) in Some (Some a, h').
(** FN(LIST(EL),copy), isl_list_templ.c:51-58 *)
Definition list_copy (l : option addr) : M (option addr) :=
  match l with
  | None => ret None
  | Some a => with_list a (fun r s p => let? _ := put_list a (r + 1) s p in ret (Some a))
  end.
(** FN(LIST(EL),free), isl_list_templ.c:234-250 *)
Fixpoint free_els (p : list (option addr)) : M unit :=
  match p with
  | [] => ret tt
  | e :: p' => let? _ := el_free e in free_els p'
  end.
(** FN(LIST(EL),free), isl_list_templ.c:234-250; always returns NULL *)
Definition list_free (l : option addr) : M (option addr) :=
  match l with
  | None => ret None
  | Some a => with_list a (fun r s p =>
      if 0 <? r - 1 then let? _ := put_list a (r - 1) s p in ret None
      else let? _ := free_els p in fun h => Some (None, hset h a None))
  end.

(** the body of the loop [res = add(res, copy(list->p[i]))] needs add and grow,
    which are mutually recursive through dup; the recursive call happens on a
    fresh list with enough room, so that the inner add does not call grow's slow
    path.  [add_room] is FN(LIST(EL),add), isl_list_templ.c:141-154, for a list
    with a single reference and room for the element (undefined otherwise) *)
Definition add_room (l e : option addr) : M (option addr) :=
  match l, e with
  | Some a, Some _ => with_list a (fun r s p =>
      if (r =? 1) && (len p + 1 <=? s) then let? _ := put_list a r s (p ++ [e]) in ret l
      else ub)
  | _, _ => let? _ := el_free e in let? _ := list_free l in ret None
  end.
(** [for (...) res = add(res, copy(list->p[i]))] over the elements [es] *)
Fixpoint add_copies (es : list (option addr)) (res : option addr) : M (option addr) :=
  match es with
  | [] => ret res
  | e :: es' => let? c := el_copy e in let? res := add_room res c in add_copies es' res
  end.
(** FN(LIST(EL),dup), isl_list_templ.c:60-74 *)
Definition list_dup (l : option addr) : M (option addr) :=
  match l with
  | None => ret None
  | Some a => with_list a (fun r s p => let? d := list_alloc (len p) in add_copies p d)
  end.
(** FN(LIST(EL),cow), isl_list_templ.c:76-85 *)
Definition list_cow (l : option addr) : M (option addr) :=
  match l with
  | None => ret None
  | Some a => with_list a (fun r s p =>
      if r =? 1 then ret l
      else let? _ := put_list a (r - 1) s p in list_dup l)
  end.
(** FN(LIST(EL),grow), isl_list_templ.c:93-127 *)
Definition list_grow (l : option addr) (n : Z) : M (option addr) :=
  match l with
  | None => ret None
  | Some a => with_list a (fun r s p =>
      if (r =? 1) && (len p + n <=? s) then ret l
      else
        let new_size := (len p + n + 1) * 3 / 2 in
        if r =? 1 then let? _ := put_list a r new_size p in ret l
        else
          let new_size := if (len p + n <=? s) && (s <? new_size) then s else new_size in
          let? res := list_alloc new_size in
          let? res := add_copies p res in
          let? _ := list_free l in
          ret res)
  end.
(** FN(LIST(EL),add), isl_list_templ.c:141-154 *)
Definition list_add (l e : option addr) : M (option addr) :=
  let? l := list_grow l 1 in
  match l, e with
  | Some a, Some _ => with_list a (fun r s p =>
      if len p + 1 <=? s then let? _ := put_list a r s (p ++ [e]) in ret l else ub)
  | _, _ => let? _ := el_free e in let? _ := list_free l in ret None
  end.

(** FN(LIST(EL),check_index), isl_list_templ.c:131-139 *)
Definition index_ok (p : list (option addr)) (i : Z) : bool := (0 <=? i) && (i <? len p).

(** FN(LIST(EL),drop), isl_list_templ.c:158-179; [first] and [n] are unsigned *)
Definition list_drop (l : option addr) (first n : Z) : M (option addr) :=
  match l with
  | None => ret None
  | Some a => with_list a (fun r s p =>
      let fn := (first + n) mod 2 ^ 32 in
      if (len p <? fn) || (fn <? first) then list_free l
      else if n =? 0 then ret l
      else
        let? l := list_cow l in
        match l with
        | None => ret None
        | Some a => with_list a (fun r s p =>
            let f := Z.to_nat first in
            let k := Z.to_nat n in
            let? _ := free_els (firstn k (skipn f p)) in
            let? _ := put_list a r s (firstn f p ++ skipn (f + k) p) in
            ret l)
        end)
  end.
(** FN(LIST(EL),clear), isl_list_templ.c:183-188 *)
Definition list_clear (l : option addr) : M (option addr) :=
  match l with
  | None => ret None
  | Some a => with_list a (fun r s p => list_drop l 0 (len p))
  end.
(** FN(LIST(EL),insert), isl_list_templ.c:197-232 *)
Definition list_insert (l : option addr) (pos : Z) (e : option addr) : M (option addr) :=
  match l, e with
  | Some a, Some _ => with_list a (fun r s p =>
      if len p <? pos then
        let? _ := el_free e in let? _ := list_free l in ret None
      else
        let k := Z.to_nat pos in
        if (r =? 1) && (len p <? s) then
          let? _ := put_list a r s (firstn k p ++ e :: skipn k p) in ret l
        else
          let? res := list_alloc (len p + 1) in
          let? res := add_copies (firstn k p) res in
          let? res := add_room res e in
          let? res := add_copies (skipn k p) res in
          let? _ := list_free l in
          ret res)
  | _, _ => let? _ := el_free e in let? _ := list_free l in ret None
  end.

(** FN(LIST(EL),size), isl_list_templ.c:254-257; -1 is isl_size_error *)
Definition list_size (l : option addr) : M Z :=
  match l with
  | None => ret (-1)
  | Some a => with_list a (fun r s p => ret (len p))
  end.
(** FN(LIST(EL),peek), isl_list_templ.c:268-273 and
    FN(LIST(EL),get_at), isl_list_templ.c:277-280 *)
Definition list_get_at (l : option addr) (i : Z) : M (option addr) :=
  match l with
  | None => ret None
  | Some a => with_list a (fun r s p =>
      if index_ok p i then el_copy (nth (Z.to_nat i) p None) else ret None)
  end.
(** FN(FN(LIST(EL),set),EL_BASE), isl_list_templ.c:292-313 *)
Definition list_set (l : option addr) (i : Z) (e : option addr) : M (option addr) :=
  match l, e with
  | Some a, Some b => with_list a (fun r s p =>
      if negb (index_ok p i) then
        let? _ := el_free e in let? _ := list_free l in ret None
      else
        match nth (Z.to_nat i) p None with
        | Some b' =>
          if Nat.eqb b' b then let? _ := el_free e in ret l
          else
            let? l := list_cow l in
            match l with
            | None => let? _ := el_free e in ret None
            | Some a => with_list a (fun r s p =>
                let? _ := el_free (nth (Z.to_nat i) p None) in
                let? _ := put_list a r s (lset p (Z.to_nat i) e) in
                ret l)
            end
        | None =>
            let? l := list_cow l in
            match l with
            | None => let? _ := el_free e in ret None
            | Some a => with_list a (fun r s p =>
                let? _ := el_free (nth (Z.to_nat i) p None) in
                let? _ := put_list a r s (lset p (Z.to_nat i) e) in
                ret l)
            end
        end)
  | _, _ => let? _ := el_free e in let? _ := list_free l in ret None
  end.
(** FN(FN(LIST(EL),take),EL_BASE), isl_list_templ.c:325-337 *)
Definition list_take (l : option addr) (i : Z) : M (option addr) :=
  match l with
  | None => ret None
  | Some a => with_list a (fun r s p =>
      if negb (index_ok p i) then ret None
      else if negb (r =? 1) then list_get_at l i
      else let? _ := put_list a r s (lset p (Z.to_nat i) None) in
           ret (nth (Z.to_nat i) p None))
  end.
(** conversion of an unsigned to an int *)
Definition to_int (u : Z) : Z := if u <? 2 ^ 31 then u else u - 2 ^ 32.
(** FN(LIST(EL),swap), isl_list_templ.c:351-363; the positions are unsigned *)
Definition list_swap (l : option addr) (pos1 pos2 : Z) : M (option addr) :=
  if pos1 =? pos2 then ret l
  else
    let? el1 := list_take l (to_int pos1) in
    let? el2 := list_take l (to_int pos2) in
    let? l := list_set l (to_int pos1) el2 in
    list_set l (to_int pos2) el1.
(** FN(LIST(EL),reverse), isl_list_templ.c:367-375; [k] is the number of
    remaining iterations *)
Fixpoint reverse_loop (k : nat) (i n : Z) (l : option addr) : M (option addr) :=
  match k with
  | O => ret l
  | S k' =>
    if i <? n - 1 - i then let? l := list_swap l i (n - 1 - i) in reverse_loop k' (i + 1) n l
    else ret l
  end.
Definition list_reverse (l : option addr) : M (option addr) :=
  let? n := list_size l in reverse_loop (Z.to_nat n) 0 n l.
(** FN(LIST(EL),map), isl_list_templ.c:420-438; [k] is the number of remaining
    iterations; the callback is [el_modify f] *)
Fixpoint map_loop (f : Z -> option Z) (k : nat) (i : Z) (l : option addr) : M (option addr) :=
  match k with
  | O => ret l
  | S k' =>
    let? e := list_take l i in
    match e with
    | None => list_free l
    | Some _ =>
      let? e := el_modify f e in
      let? l := list_set l i e in
      map_loop f k' (i + 1) l
    end
  end.
Definition list_map (f : Z -> option Z) (l : option addr) : M (option addr) :=
  match l with
  | None => ret None
  | Some a => with_list a (fun r s p => map_loop f (length p) 0 l)
  end.
(** FN(FN(LIST(EL),from),EL_BASE), isl_list_templ.c:591-607 *)
Definition list_from (e : option addr) : M (option addr) :=
  match e with
  | None => ret None
  | Some _ => let? l := list_alloc 1 in list_add l e
  end.
(** FN(LIST(EL),concat_inplace), isl_list_templ.c:621-630 and
    FN(LIST(EL),concat), isl_list_templ.c:637-664 *)
Definition list_concat (l1 l2 : option addr) : M (option addr) :=
  match l1, l2 with
  | Some a, Some b => with_list a (fun r1 s1 p1 => with_list b (fun r2 s2 p2 =>
      if (r1 =? 1) && (len p1 + len p2 <=? s1) then
        let? l := add_copies p2 l1 in
        let? _ := list_free l2 in ret l
      else
        let? res := list_alloc (len p1 + len p2) in
        let? res := add_copies p1 res in
        let? res := add_copies p2 res in
        let? _ := list_free l1 in
        let? _ := list_free l2 in
        ret res))
  | _, _ => let? _ := list_free l1 in let? _ := list_free l2 in ret None
  end.
(** the values of the elements, as seen by isl_*_list_foreach or by printing:
    FN(LIST(EL),foreach), isl_list_templ.c:377-394 *)
Fixpoint read_els (p : list (option addr)) : M (list Z) :=
  match p with
  | [] => ret []
  | None :: _ => ub
  | Some a :: p' => fun h => match hget h a with
                             | Some (OEl _ v) => bind (read_els p') (fun vs => ret (v :: vs)) h
                             | _ => None
                             end
  end.
Definition list_read (l : option addr) : M (option (list Z)) :=
  match l with
  | None => ret None
  | Some a => with_list a (fun r s p => let? vs := read_els p in ret (Some vs))
  end.
Definition el_read (e : option addr) : M (option Z) :=
  match e with
  | None => ret None
  | Some a => fun h => match hget h a with Some (OEl _ v) => Some (Some v, h) | _ => None end
  end.

(** ** Clients.  A client has registers for elements and registers for lists;
    each register owns the reference it holds.  Passing a register to an
    __isl_take argument empties it; __isl_give results are stored in a register
    after its previous contents has been freed.  NULL is a possible contents. *)
Inductive cop :=
| CElNew (e : nat) (v : Z) | CElCopy (d e : nat) | CElFree (e : nat) | CElModify (f : Z -> option Z) (e : nat)
| CElRead (e : nat)
| CAlloc (l : nat) (n : Z) | CCopy (d l : nat) | CFree (l : nat)
| CAdd (l e : nat) | CDrop (l : nat) (first n : Z) | CClear (l : nat) | CInsert (l : nat) (pos : Z) (e : nat)
| CSize (l : nat) | CGet (e l : nat) (i : Z) | CSet (l : nat) (i : Z) (e : nat)
| CSwap (l : nat) (i j : Z) | CReverse (l : nat) | CMap (f : Z -> option Z) (l : nat)
| CFrom (l e : nat) | CConcat (l l2 : nat) | CRead (l : nat).
(** what the client observes *)
Inductive cobs := NoObs | ObsEl (v : option Z) | ObsList (vs : option (list Z)) | ObsSize (n : Z).
Record cstate := mkc { els : nat -> option addr; lists : nat -> option addr }.
Definition rset (f : nat -> option addr) (i : nat) (a : option addr) : nat -> option addr :=
  fun j => if Nat.eqb j i then a else f j.
(** store an element / a list in a register *)
Definition store_el (c : cstate) (d : nat) (a : option addr) : M (cobs * cstate) :=
  let? _ := el_free (els c d) in ret (NoObs, mkc (rset (els c) d a) (lists c)).
Definition store_list (c : cstate) (d : nat) (a : option addr) : M (cobs * cstate) :=
  let? _ := list_free (lists c d) in ret (NoObs, mkc (els c) (rset (lists c) d a)).
Definition take_el (c : cstate) (e : nat) : cstate := mkc (rset (els c) e None) (lists c).
Definition take_list (c : cstate) (l : nat) : cstate := mkc (els c) (rset (lists c) l None).

Definition cexec (o : cop) (c : cstate) : M (cobs * cstate) :=
  match o with
  | CElNew e v => let? a := el_alloc v in store_el c e a
  | CElCopy d e => let? a := el_copy (els c e) in store_el c d a
  | CElFree e => let? _ := el_free (els c e) in ret (NoObs, take_el c e)
  | CElModify f e => let? a := el_modify f (els c e) in store_el (take_el c e) e a
  | CElRead e => let? v := el_read (els c e) in ret (ObsEl v, c)
  | CAlloc l n => let? a := list_alloc n in store_list c l a
  | CCopy d l => let? a := list_copy (lists c l) in store_list c d a
  | CFree l => let? _ := list_free (lists c l) in ret (NoObs, take_list c l)
  | CAdd l e => let? a := list_add (lists c l) (els c e) in store_list (take_el (take_list c l) e) l a
  | CDrop l first n => let? a := list_drop (lists c l) first n in store_list (take_list c l) l a
  | CClear l => let? a := list_clear (lists c l) in store_list (take_list c l) l a
  | CInsert l pos e => let? a := list_insert (lists c l) pos (els c e) in store_list (take_el (take_list c l) e) l a
  | CSize l => let? n := list_size (lists c l) in ret (ObsSize n, c)
  | CGet e l i => let? a := list_get_at (lists c l) i in store_el c e a
  | CSet l i e => let? a := list_set (lists c l) i (els c e) in store_list (take_el (take_list c l) e) l a
  | CSwap l i j => let? a := list_swap (lists c l) i j in store_list (take_list c l) l a
  | CReverse l => let? a := list_reverse (lists c l) in store_list (take_list c l) l a
  | CMap f l => let? a := list_map f (lists c l) in store_list (take_list c l) l a
  | CFrom l e => let? a := list_from (els c e) in store_list (take_el c e) l a
  | CConcat l l2 =>
    let? a := list_concat (lists c l) (if Nat.eqb l l2 then None else lists c l2) in
    store_list (take_list (take_list c l) l2) l a
  | CRead l => let? vs := list_read (lists c l) in ret (ObsList vs, c)
  end.
Fixpoint cexec_all (os : list cop) (c : cstate) : M (list cobs * cstate) :=
  match os with
  | [] => ret ([], c)
  | o :: os' => let? r := cexec o c in
                let? rs := cexec_all os' (snd r) in
                ret (fst r :: fst rs, snd rs)
  end.
