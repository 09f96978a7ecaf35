(** What a dependence analysis should compute. *)
From Coq Require Import ZArith List Bool Arith.
From Verif Require Import FlowModel.
Import ListNotations.
Open Scope Z_scope.

(** A statement that is nested in n loops has a position in the text of the
    program: n + 1 numbers, that of its outermost loop (or of the statement itself
    if n = 0), that of its next loop inside this loop, ..., that of the statement
    inside its innermost loop.  The statement instance with loop iterators [x] is
    executed at the moment that is obtained by interleaving the positions and the
    values of the iterators. *)
Fixpoint time (p : list Z) (x : vec) : list Z :=
  match p with
  | [] => []
  | [b] => [b]
  | b :: p => match x with v :: x => b :: v :: time p x | [] => [b] end
  end.
(** [u] and [v] first differ at position [i], and [u] is the smaller one *)
Definition lt_at (i : nat) (u v : list Z) : Prop :=
  (i < length u)%nat /\ (i < length v)%nat /\ firstn i u = firstn i v /\ nth i u 0 < nth i v 0.
(** the order of moments *)
Definition earlier (u v : list Z) : Prop := exists i, lt_at i u v.
(** what the callback should return for two statements at these positions
    (doc/user.pod:11050-11058): twice the number of shared loops, plus one if the
    first precedes the second *)
Fixpoint level (p q : list Z) : Z :=
  match p, q with
  | b :: p, c :: q => if b =? c then match p with [] => 0 | _ => 2 + level p q end else if b <? c then 1 else 0
  | _, _ => 0
  end.
(** the positions of two different statements *)
Definition apart (p q : list Z) : Prop :=
  exists i, (i < length p)%nat /\ (i < length q)%nat /\ firstn i p = firstn i q /\ nth i p 0 <> nth i q 0.

Section Spec.
Context {D : Type}.
(** the positions of the statements that the tokens stand for *)
Variable pos : D -> list Z.
Definition callback_ok (level_before : D -> D -> Z) : Prop :=
  forall d d', level_before d d' = level (pos d) (pos d') /\ (apart (pos d) (pos d') \/ pos d = pos d').

(** every non-empty subset of [A] has a lexicographically greatest element (for
    example because [A] is finite) *)
Definition has_last (A : vset) : Prop :=
  forall P : vset, (exists w, A w /\ P w) -> exists w, A w /\ P w /\ forall w', A w' -> P w' -> w' = w \/ lexlt w' w.

(** an access by a statement that is nested in [l_dim] loops *)
Definition access_ok (elem : nat) (a : @lmap D) : Prop :=
  length (pos (l_data a)) = S (l_dim a) /\ forall x e, l_map a x e -> length x = l_dim a /\ length e = elem.

(** when an instance is executed *)
Definition moment (a : @lmap D) (x : vec) : list Z := time (pos (l_data a)) x.
Definition before (a : @lmap D) (x : vec) (b : @lmap D) (y : vec) : Prop := earlier (moment a x) (moment b y).

Section Problem.
Variable sink : @lmap D.
Variables must may : list (@lmap D).
(** instance [w] of a source writes element [e] before instance [s] of the sink *)
Definition candidate (l : list lmap) (j : nat) (w s e : vec) : Prop :=
  (j < length l)%nat /\ l_map (nth j l sink) w e /\ before (nth j l sink) w sink s.
(** it is the last of the must-sources that does so *)
Definition last (j : nat) (w s e : vec) : Prop :=
  candidate must j w s e /\
  forall j' w', candidate must j' w' s e -> j' = j /\ w' = w \/ before (nth j' must sink) w' (nth j must sink) w.
(** instance [v] of may-source [i] is executed after it *)
Definition follows (i : nat) (v : vec) (j : nat) (w : vec) : Prop := before (nth j must sink) w (nth i may sink) v.

(** the dependences in which each sink is given by its iterators [s] and the
    accessed element [e] *)
Definition must_dep (j : nat) (w s e : vec) : Prop :=
  l_map sink s e /\ last j w s e /\ ~ exists i v, candidate may i v s e /\ follows i v j w.
Definition maym_dep (j : nat) (w s e : vec) : Prop :=
  l_map sink s e /\ last j w s e /\ exists i v, candidate may i v s e /\ follows i v j w.
Definition may_dep (i : nat) (v s e : vec) : Prop :=
  l_map sink s e /\ candidate may i v s e /\ forall j w, last j w s e -> follows i v j w.
Definition must_no (s e : vec) : Prop :=
  l_map sink s e /\ (~ exists j w, candidate must j w s e) /\ ~ exists i v, candidate may i v s e.
Definition may_no (s e : vec) : Prop :=
  l_map sink s e /\ (~ exists j w, candidate must j w s e) /\ exists i v, candidate may i v s e.
End Problem.
(** the assumptions on the input: a correct callback, accesses with the right
    dimensions, must-sources in different statements, and sources for which the
    last instance exists *)
Record problem_ok (level_before : D -> D -> Z) (elem : nat) (sink : lmap) (must may : list lmap) : Prop := {
  p_call : callback_ok level_before;
  p_sink : access_ok elem sink;
  p_must : forall a, List.In a must -> access_ok elem a /\ forall e, has_last (fun w => l_map a w e);
  p_may : forall a, List.In a may -> access_ok elem a;
  p_apart : forall i j, (i < length must)%nat -> (j < length must)%nat -> i <> j -> apart (pos (l_data (nth i must sink))) (pos (l_data (nth j must sink))) }.
End Spec.
(** the parameters of the model: sets that are found to be empty are empty *)
Definition sound_empty (plain_is_empty : rel -> bool) : Prop := forall m, plain_is_empty m = true -> forall x y, ~ m x y.
Definition sound_set_empty (set_plain_is_empty : vset -> bool) : Prop := forall s, set_plain_is_empty s = true -> forall x, ~ s x.
(** a client that adds the sources one by one *)
Fixpoint add_all {D} (acc : MatModel.res (@info D)) (l : list (@lmap D * bool)) : MatModel.res info :=
  match l with [] => acc | (a, must) :: l => add_all (bind acc (fun acc => add_source acc a must)) l end.
(** the must-sources are in the order of the program text *)
Definition textual {D} (pos : D -> list Z) (sink : @lmap D) (must : list (@lmap D)) : Prop :=
  forall i j, (i < j < length must)%nat -> earlier (pos (l_data (nth i must sink))) (pos (l_data (nth j must sink))).
