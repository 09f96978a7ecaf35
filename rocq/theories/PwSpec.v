(** What a piecewise quasi-affine expression means: a function from the integer
    points of its domain to numbers or NaN. *)
From Coq Require Import ZArith List Bool QArith Arith.
From Verif Require Import MatModel BMapModel SpaceModel SetBase SetSpec SetLift SetOps SetMaps ValSpec AffModel AffSpec PwModel.
Import ListNotations.
Open Scope Z_scope.

(** ** values *)
Inductive num := NaN | Num (q : Q).
Definition num_eq (x y : num) : Prop :=
  match x, y with NaN, NaN => True | Num a, Num b => (a == b)%Q | _, _ => False end.
(** an operation applies to numbers, NaN gives NaN *)
Definition lift1 (op : Q -> Q) (x : num) : num := match x with Num a => Num (op a) | NaN => NaN end.
Definition lift2 (op : Q -> Q -> Q) (x y : num) : num := match x, y with Num a, Num b => Num (op a b) | _, _ => NaN end.
(** division by zero gives NaN *)
Definition ndiv (x y : num) : num := match x, y with Num a, Num b => if Qeq_bool b 0 then NaN else Num (a / b) | _, _ => NaN end.
(** the integer part, the integer next to a number in the direction of zero *)
Definition is_trunc (q : Q) (n : Z) : Prop := ((0 <= q)%Q -> is_floor q n) /\ ((q < 0)%Q -> is_ceil q n).

(** ** points, sets and expressions *)
Section Space.
(** the space of the domain *)
Variable sp : space.
(** values for the parameters and the set dimensions *)
Definition point (P O : list Z) : Prop := length P = nparam sp /\ length O = n_out sp.
Definition holds (s : set) (P O : list Z) : Prop := relates_any s P [] O.
Definition is_value (f : aff) (P O : list Z) (x : num) : Prop :=
  match x with NaN => nan_aff f | Num q => wf_aff f /\ avalue f (1 :: P ++ O) q end.
Definition ok_set (s : set) : Prop := okm (nparam sp) 0 (n_out sp) s.
Definition ok_aff (f : aff) : Prop := (wf_aff f \/ nan_aff f) /\ is_equal (a_sp f) sp = true.

(** ** piecewise expressions *)
Definition defined (pw : pwaff) (P O : list Z) : Prop := exists s f, List.In (s, f) pw /\ holds s P O.
Definition takes (pw : pwaff) (P O : list Z) (x : num) : Prop := exists s f, List.In (s, f) pw /\ holds s P O /\ is_value f P O x.
(** no point belongs to two pieces *)
Definition disjoint_pieces (pw : pwaff) : Prop :=
  ForallOrdPairs (fun p q => forall P O, point P O -> ~ (holds (fst p) P O /\ holds (fst q) P O)) pw.
Definition ok_pw (pw : pwaff) : Prop := Forall (fun p => ok_set (fst p) /\ ok_aff (snd p)) pw.
Definition wf_pw (pw : pwaff) : Prop := ok_pw pw /\ disjoint_pieces pw.
(** none of the expressions is NaN *)
Definition no_nan (pw : pwaff) : Prop := Forall (fun p => wf_aff (snd p)) pw.
(** two piecewise expressions describe the same function *)
Definition same_function (pw1 pw2 : pwaff) : Prop :=
  forall P O, point P O -> (defined pw1 P O <-> defined pw2 P O) /\ forall x, takes pw1 P O x <-> takes pw2 P O x.

(** ** what is expected from the operations on sets and expressions *)
Definition set_op (rel : Prop -> Prop -> Prop) (op : set -> set -> res set) : Prop :=
  forall s1 s2 s, ok_set s1 -> ok_set s2 -> op s1 s2 = Ok s ->
    ok_set s /\ forall P O, point P O -> (holds s P O <-> rel (holds s1 P O) (holds s2 P O)).
Definition exact_intersect := set_op (fun a b => a /\ b).
Definition exact_subtract := set_op (fun a b => a /\ ~ b).
Definition exact_union := set_op (fun a b => a \/ b).
Definition exact_complement (op : set -> res set) : Prop :=
  forall s s', ok_set s -> op s = Ok s' -> ok_set s' /\ forall P O, point P O -> (holds s' P O <-> ~ holds s P O).
(** only the representation changes *)
Definition keeps_set (op : set -> res set) : Prop :=
  forall s s', ok_set s -> op s = Ok s' -> ok_set s' /\ forall P O, point P O -> (holds s' P O <-> holds s P O).
(** the expression has the same value on the set *)
Definition keeps_value (op : aff -> set -> res aff) : Prop :=
  forall f s g, ok_aff f -> ok_set s -> op f s = Ok g -> ok_aff g /\ forall P O x, point P O -> holds s P O -> is_value f P O x -> is_value g P O x.
Definition keeps_basic (op : bmap -> res bmap) : Prop := forall b b', proper b -> op b = Ok b' -> same b b'.
(** only disjoint or equal sets are found to be so *)
Definition sound_disjoint (test : set -> set -> res bool) : Prop :=
  forall s1 s2, ok_set s1 -> ok_set s2 -> test s1 s2 = Ok true -> forall P O, point P O -> ~ (holds s1 P O /\ holds s2 P O).
Definition sound_equal (test : set -> set -> res bool) : Prop :=
  forall s1 s2, ok_set s1 -> ok_set s2 -> test s1 s2 = Ok true -> forall P O, point P O -> (holds s1 P O <-> holds s2 P O).
(** expressions that compare equal are equal *)
Definition sound_cmp (cmp : aff -> aff -> Z) : Prop :=
  forall f g, ok_aff f -> ok_aff g -> cmp f g = 0 -> forall P O x, point P O -> (is_value f P O x <-> is_value g P O x).
Definition exact_contains (test : set -> list Z -> res bool) : Prop :=
  forall s P O c, ok_set s -> point P O -> test s (1 :: P ++ O) = Ok c -> (c = true <-> holds s P O).
(** the integer or rational value that the library returns for a number *)
Definition means_num (v : ValModel.val) (x : num) : Prop := match x with NaN => means v ENan | Num q => means v (EFin q) end.
End Space.
