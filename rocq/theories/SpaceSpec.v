(** What a space describes, independently of its representation: a list of
    parameters and two tuples.  A tuple has an optional name, a list of
    dimensions (with optional names) and possibly a wrapped relation between
    two tuples.  A set is represented by a map from the special tuple
    [no_tuple]. *)
From Coq Require Import ZArith List Bool.
From Verif Require Import SpaceModel.
Import ListNotations.

Inductive tuple := T (id : option Z) (dims : list (option Z)) (inner : option (tuple * tuple)).
Definition tid (t : tuple) := let 'T i _ _ := t in i.
Definition dims (t : tuple) := let 'T _ d _ := t in d.
Definition inner (t : tuple) := let 'T _ _ n := t in n.
Definition no_tuple : tuple := T (Some id_none) [] None.
Record view := V { vparams : list (option Z); vin : tuple; vout : tuple }.

(** the view of a space *)
Definition dl (s : space) (t : dtype) : list (option Z) := map (get_id s t) (seq 0 (dim s t)).
Fixpoint tuples (s : space) : tuple * tuple :=
  (T (id0 s) (dl s In) (match nest0 s with Some n => Some (tuples n) | None => None end),
   T (id1 s) (dl s Out) (match nest1 s with Some n => Some (tuples n) | None => None end)).
Definition tup_in (s : space) : tuple := fst (tuples s).
Definition tup_out (s : space) : tuple := snd (tuples s).
Definition view_of (s : space) : view := V (dl s Param) (tup_in s) (tup_out s).

(** valid spaces: there are at most as many names as dimensions; a wrapped
    relation has the same parameters as the space, and its dimensions
    are those of the tuple *)
Fixpoint wf (s : space) : Prop :=
  n_id s <= dim_all s /\
  match nest0 s with Some n => wf n /\ n_in n + n_out n = n_in s /\ dl n Param = dl s Param | None => True end /\
  match nest1 s with Some n => wf n /\ n_in n + n_out n = n_out s /\ dl n Param = dl s Param | None => True end.

(** tuples that are equal up to the names of dimensions *)
Fixpoint same (a b : tuple) {struct a} : Prop :=
  tid a = tid b /\ length (dims a) = length (dims b) /\
  match a, inner b with
  | T _ _ (Some (a1, a2)), Some (b1, b2) => same a1 b1 /\ same a2 b2
  | T _ _ None, None => True
  | _, _ => False
  end.
(** tuples where the names of the dimensions of a wrapped relation are those
    of the outer dimensions *)
Fixpoint consistent (a : tuple) : Prop :=
  match a with
  | T _ d (Some (a1, a2)) => d = dims a1 ++ dims a2 /\ consistent a1 /\ consistent a2
  | T _ _ None => True
  end.

(** ** Operations on views *)
Definition is_set_view (v : view) : Prop := vin v = no_tuple.
Definition is_params_view (v : view) : Prop := vin v = no_tuple /\ vout v = no_tuple.
(** the tuple of the relation from [a] to [b] wrapped inside a set *)
Definition wrapped (a b : tuple) : tuple := T None (dims a ++ dims b) (Some (a, b)).
Definition v_wrap (v : view) : view := V (vparams v) no_tuple (wrapped (vin v) (vout v)).
Definition v_reverse (v : view) : view := V (vparams v) (vout v) (vin v).
Definition v_domain (v : view) : view := V (vparams v) no_tuple (vin v).
Definition v_range (v : view) : view := V (vparams v) no_tuple (vout v).
(** the parts [A] and [B] of a tuple [A -> B], with the names of the outer
    dimensions *)
Definition part1 (t a b : tuple) : tuple := T (tid a) (firstn (length (dims a)) (dims t)) (inner a).
Definition part2 (t a b : tuple) : tuple := T (tid b) (skipn (length (dims a)) (dims t)) (inner b).
(** the tuple without its wrapped relation *)
Definition flat (t : tuple) : tuple := match inner t with Some _ => T None (dims t) None | None => t end.
(** the tuple without name and dimensions *)
Definition unit_tuple : tuple := T None [] None.
(** the (valid) space [s] describes [v] *)
Definition spc (s : space) (v : view) : Prop := wf s /\ view_of s = v.
