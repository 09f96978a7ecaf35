(** Specification of the list operations: pure sequences held in variables.
    Independent of the heap, of reference counts and of capacities. *)
From Coq Require Import ZArith List Bool Arith.
From Verif Require Import ListModel.
Import ListNotations.
Open Scope Z_scope.

(** the contents of the variables; [None] is NULL *)
Record sstate := mks { sels : nat -> option Z; slists : nat -> option (list Z) }.
Definition supd {A} (f : nat -> A) (i : nat) (x : A) : nat -> A :=
  fun j => if Nat.eqb j i then x else f j.
Definition set_sel (s : sstate) e v := mks (supd (sels s) e v) (slists s).
Definition set_slist (s : sstate) l v := mks (sels s) (supd (slists s) l v).
Definition sinit := mks (fun _ => None) (fun _ => None).

Definition slen (vs : list Z) : Z := Z.of_nat (length vs).
Definition valid_pos (vs : list Z) (i : Z) : bool := (0 <=? i) && (i <? slen vs).
(** replace the element at position [i] *)
Definition upd_at (vs : list Z) (i : Z) (v : Z) : list Z :=
  firstn (Z.to_nat i) vs ++ v :: skipn (S (Z.to_nat i)) vs.

Definition seq_add (vl : option (list Z)) (v : option Z) :=
  match vl, v with Some vs, Some x => Some (vs ++ [x]) | _, _ => None end.
Definition seq_drop (vl : option (list Z)) (first n : Z) :=
  match vl with
  | Some vs => if first + n <=? slen vs
               then Some (firstn (Z.to_nat first) vs ++ skipn (Z.to_nat (first + n)) vs)
               else None
  | None => None
  end.
Definition seq_insert (vl : option (list Z)) (pos : Z) (v : option Z) :=
  match vl, v with
  | Some vs, Some x => if pos <=? slen vs
                       then Some (firstn (Z.to_nat pos) vs ++ x :: skipn (Z.to_nat pos) vs)
                       else None
  | _, _ => None
  end.
Definition seq_get (vl : option (list Z)) (i : Z) :=
  match vl with
  | Some vs => if valid_pos vs i then nth_error vs (Z.to_nat i) else None
  | None => None
  end.
Definition seq_set (vl : option (list Z)) (i : Z) (v : option Z) :=
  match vl, v with
  | Some vs, Some x => if valid_pos vs i then Some (upd_at vs i x) else None
  | _, _ => None
  end.
(** equal positions are accepted without check *)
Definition seq_swap (vl : option (list Z)) (i j : Z) :=
  if i =? j then vl else
  match vl with
  | Some vs => if valid_pos vs i && valid_pos vs j
               then Some (upd_at (upd_at vs i (nth (Z.to_nat j) vs 0)) j (nth (Z.to_nat i) vs 0))
               else None
  | None => None
  end.
Fixpoint map_opt (f : Z -> option Z) (vs : list Z) : option (list Z) :=
  match vs with
  | [] => Some []
  | v :: vs' => match f v, map_opt f vs' with
                | Some w, Some ws => Some (w :: ws)
                | _, _ => None
                end
  end.

Definition sexec (o : cop) (s : sstate) : cobs * sstate :=
  match o with
  | CElNew e v => (NoObs, set_sel s e (Some v))
  | CElCopy d e => (NoObs, set_sel s d (sels s e))
  | CElFree e => (NoObs, set_sel s e None)
  | CElModify f e => (NoObs, set_sel s e (match sels s e with Some v => f v | None => None end))
  | CElRead e => (ObsEl (sels s e), s)
  | CAlloc l n => (NoObs, set_slist s l (if n <? 0 then None else Some []))
  | CCopy d l => (NoObs, set_slist s d (slists s l))
  | CFree l => (NoObs, set_slist s l None)
  | CAdd l e => (NoObs, set_slist (set_sel s e None) l (seq_add (slists s l) (sels s e)))
  | CDrop l first n => (NoObs, set_slist s l (seq_drop (slists s l) first n))
  | CClear l => (NoObs, set_slist s l (match slists s l with Some _ => Some [] | None => None end))
  | CInsert l pos e => (NoObs, set_slist (set_sel s e None) l (seq_insert (slists s l) pos (sels s e)))
  | CSize l => (ObsSize (match slists s l with Some vs => slen vs | None => -1 end), s)
  | CGet e l i => (NoObs, set_sel s e (seq_get (slists s l) i))
  | CSet l i e => (NoObs, set_slist (set_sel s e None) l (seq_set (slists s l) i (sels s e)))
  | CSwap l i j => (NoObs, set_slist s l (seq_swap (slists s l) i j))
  | CReverse l => (NoObs, set_slist s l (match slists s l with Some vs => Some (rev vs) | None => None end))
  | CMap f l => (NoObs, set_slist s l (match slists s l with Some vs => map_opt f vs | None => None end))
  | CFrom l e => (NoObs, set_slist (set_sel s e None) l
                           (match sels s e with Some v => Some [v] | None => None end))
  | CConcat l l2 =>
    (NoObs, set_slist (set_slist s l2 None) l
              (match slists s l, (if Nat.eqb l l2 then None else slists s l2) with
               | Some v1, Some v2 => Some (v1 ++ v2)
               | _, _ => None
               end))
  | CRead l => (ObsList (slists s l), s)
  end.
Fixpoint sexec_all (os : list cop) (s : sstate) : list cobs * sstate :=
  match os with
  | [] => ([], s)
  | o :: os' => let r := sexec o s in
                let rs := sexec_all os' (snd r) in
                (fst r :: fst rs, snd rs)
  end.

(** the arguments declared unsigned are 32 bit unsigned values, int ones 32 bit
    signed values and the client uses registers below [N] only *)
Definition uint (x : Z) := 0 <= x < 2 ^ 32.
Definition regs_of (o : cop) : list nat :=
  match o with
  | CElNew e _ | CElFree e | CElModify _ e | CElRead e => [e]
  | CElCopy d e => [d; e]
  | CAlloc l _ | CFree l | CDrop l _ _ | CClear l | CSize l | CSwap l _ _ | CReverse l | CMap _ l | CRead l => [l]
  | CCopy d l => [d; l]
  | CAdd l e | CInsert l _ e | CSet l _ e | CFrom l e => [l; e]
  | CGet e l _ => [e; l]
  | CConcat l l2 => [l; l2]
  end.
Definition cop_ok (N : nat) (o : cop) : Prop :=
  (forall r, In r (regs_of o) -> (r < N)%nat) /\
  match o with
  | CDrop _ first n => uint first /\ uint n
  | CInsert _ pos _ => uint pos
  | CSwap _ i j => uint i /\ uint j
  | _ => True
  end.
(** all lists along the execution have a length that fits in an int *)
Fixpoint fits (os : list cop) (s : sstate) : Prop :=
  (forall l vs, slists s l = Some vs -> slen vs < 2 ^ 31) /\
  match os with
  | [] => True
  | o :: os' => fits os' (snd (sexec o s))
  end.

(** the registers an operation stores to (or empties) *)
Definition list_dests (o : cop) : list nat :=
  match o with
  | CAlloc l _ | CFree l | CAdd l _ | CDrop l _ _ | CClear l | CInsert l _ _ | CSet l _ _
  | CSwap l _ _ | CReverse l | CMap _ l | CFrom l _ => [l]
  | CCopy d _ => [d]
  | CConcat l l2 => [l; l2]
  | _ => []
  end.
Definition el_dests (o : cop) : list nat :=
  match o with
  | CElNew e _ | CElFree e | CElModify _ e | CGet e _ _ => [e]
  | CElCopy d _ => [d]
  | CAdd _ e | CInsert _ _ e | CSet _ _ e | CFrom _ e => [e]
  | _ => []
  end.
