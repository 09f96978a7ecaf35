(** What the enumeration of integer points is expected to do, and what it
    expects of the tableau.

    A rational point is given by homogeneous integer coordinates, a positive
    common denominator and the numerators; it is an integer point if the
    denominator is 1. *)
From Coq Require Import ZArith List Bool.
From Verif Require Import SeqSpec MatModel BMapModel BMapSpec BMapSem ScanModel.
Import ListNotations.
Open Scope Z_scope.

(** ** systems of constraints *)
Record sys := mks { s_empty : bool; s_eq : list (list Z); s_ineq : list (list Z) }.
Definition sat (d : sys) (p : list Z) : Prop := s_empty d = false /\ system (s_eq d) (s_ineq d) p.
Definition of_bset (b : bmap) : sys := mks (b_empty b) (b_eq b) (b_ineq b).
Definition and_eq (r : list Z) (d : sys) : sys := mks (s_empty d) (r :: s_eq d) (s_ineq d).
(** a rational and an integer point in [n] dimensions *)
Definition rpoint (n : nat) (p : list Z) : Prop := length p = (1 + n)%nat /\ 0 < hd 0 p.
Definition ipoint (n : nat) (v : list Z) : Prop := length v = (1 + n)%nat /\ hd 0 v = 1.
Definition bounded (n : nat) (d : sys) : Prop :=
  exists k, forall p, rpoint n p -> sat d p -> forall i, Z.abs (nth i p 0) <= k * hd 0 p.

(** ** enumeration *)
(** [l] lists the integer points with property [Q], each of them once *)
Definition lists (n : nat) (Q : list Z -> Prop) (l : list (list Z)) : Prop :=
  NoDup l /\ forall v, List.In v l <-> ipoint n v /\ Q v.
(** [l] contains only such points, each of them at most once *)
Definition picks (n : nat) (Q : list Z -> Prop) (l : list (list Z)) : Prop :=
  NoDup l /\ forall v, List.In v l -> ipoint n v /\ Q v.
(** a callback that is called for the elements of a list until it fails *)
Fixpoint visit {St} (add : St -> list Z -> bool * St) (l : list (list Z)) (s : St) : bool * St :=
  match l with
  | [] => (true, s)
  | v :: l => let (ok, s) := add s v in if ok then visit add l s else (false, s)
  end.

(** ** the tableau *)
(** the value [v] is the minimum of [row], rounded up *)
Definition rounded_min (n : nat) (d : sys) (row : list Z) (v : Z) : Prop :=
  (forall p, rpoint n p -> sat d p -> (v - 1) * hd 0 p < dot row p) /\
  exists p, rpoint n p /\ sat d p /\ dot row p <= v * hd 0 p.
(** [B] is a basis of the integer vectors *)
Definition basis (n : nat) (B : list (list Z)) : Prop :=
  length B = n /\ Forall (fun r => length r = (1 + n)%nat /\ hd 0 r = 0) B /\
  (forall y, length y = n -> exists x, length x = n /\ map (fun r => dot (tl r) x) B = y) /\
  (forall x x', length x = n -> length x' = n -> map (fun r => dot (tl r) x) B = map (fun r => dot (tl r) x') B -> x = x').

Section Tab.
Variables (tab snap : Type) (tab_from : bmap -> res tab) (reduce : nat -> tab -> res (tab * list (list Z))) (tab_min : tab -> list Z -> lp * tab).
Variables (take_snap : tab -> snap * tab) (rollback : tab -> snap -> res tab) (add_eq : tab -> list Z -> res tab) (sample : tab -> res (list Z)).
(** [Rep n t st d]: the tableau [t] represents the system [d] in [n] variables,
    [st] contains the snapshots to which it can go back, the last one first, with
    the system at that time *)
Record tableau (Rep : nat -> tab -> list (snap * sys) -> sys -> Prop) : Prop := {
  t_from : forall b t, wf b -> tab_from b = Ok t -> Rep (total b) t [] (of_bset b);
  t_reduce : forall n t st d t' B, Rep n t st d -> reduce n t = Ok (t', B) -> Rep n t' st d /\ basis n B;
  t_min : forall n t st d row r t', Rep n t st d -> length row = (1 + n)%nat -> hd 0 row = 0 -> tab_min t row = (r, t') ->
    Rep n t' st d /\
    match r with
    | LpOk v => rounded_min n d row v
    | LpEmpty => forall p, rpoint n p -> ~ sat d p
    | LpUnbounded => forall k, exists p, rpoint n p /\ sat d p /\ dot row p < k * hd 0 p
    | LpError => True
    end;
  t_snap : forall n t st d s t', Rep n t st d -> take_snap t = (s, t') -> Rep n t' ((s, d) :: st) d;
  t_rollback : forall n t l s d0 st d t', Rep n t (l ++ (s, d0) :: st) d -> rollback t s = Ok t' -> Rep n t' ((s, d0) :: st) d0;
  t_add_eq : forall n t st d row t', Rep n t st d -> length row = (1 + n)%nat -> (exists p, rpoint n p /\ sat d p /\ dot row p = 0) ->
    add_eq t row = Ok t' -> Rep n t' st (and_eq row d);
  t_sample : forall n t st d v, Rep n t st d -> (exists p, rpoint n p /\ sat d p) -> sample t = Ok v ->
    rpoint n v /\ sat d v /\ forall g, (forall i, (g | nth i v 0)) -> (g | 1) }.
(** ... and no operation fails *)
Record reliable (Rep : nat -> tab -> list (snap * sys) -> sys -> Prop) : Prop := {
  n_from : forall b, wf b -> exists t, tab_from b = Ok t;
  n_reduce : forall n t st d, Rep n t st d -> bounded n d -> exists r, reduce n t = Ok r;
  n_min : forall n t st d row, Rep n t st d -> length row = (1 + n)%nat -> fst (tab_min t row) <> LpError;
  n_rollback : forall n t l s d0 st d, Rep n t (l ++ (s, d0) :: st) d -> exists t', rollback t s = Ok t';
  n_add_eq : forall n t st d row, Rep n t st d -> length row = (1 + n)%nat -> exists t', add_eq t row = Ok t';
  n_sample : forall n t st d, Rep n t st d -> (exists p, rpoint n p /\ sat d p) -> exists v, sample t = Ok v }.
End Tab.

(** ** sets *)
(** isl_set_make_disjoint and isl_set_compute_divs: basic sets without points
    in common and where the values of the integer divisions are determined; no
    basic set without dimensions is empty *)
Definition in_bset (b : bmap) (v : list Z) : Prop := exists e, length e = BMapModel.ndiv b /\ sat (of_bset b) (v ++ e).
Definition in_set (l : list bmap) (v : list Z) : Prop := exists b, List.In b l /\ in_bset b v.
Definition separate (n : nat) (l : list bmap) : Prop :=
  Forall (fun b => wf b /\ nvar b = n /\ (total b = 0%nat -> sat (of_bset b) [1]) /\
    forall v e e', ipoint n v -> length e = BMapModel.ndiv b -> length e' = BMapModel.ndiv b -> sat (of_bset b) (v ++ e) -> sat (of_bset b) (v ++ e') -> e = e') l /\
  ForallOrdPairs (fun b b' => forall v, ipoint n v -> ~ (in_bset b v /\ in_bset b' v)) l.
Definition makes_separate (n : nat) (prepare : list bmap -> res (list bmap)) : Prop :=
  forall l l', Forall (fun b => wf b /\ nvar b = n) l -> prepare l = Ok l' -> separate n l' /\ forall v, ipoint n v -> (in_set l' v <-> in_set l v).
