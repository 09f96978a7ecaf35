(** What an affine expression means: its value at an integer point. *)
From Coq Require Import ZArith List Bool QArith Arith.
From Verif Require Import SeqSpec MatModel LocalSpec SpaceModel SpaceSpec QpSpec ValModel AffModel.
Import ListNotations.
Open Scope Q_scope.

(** [f] takes the value [r] at the point with homogeneous coordinates [v] *)
Definition avalue (f : aff) (v : list Z) (r : Q) : Prop := aff_value (a_d f) (a_div f) (a_v f) v r.
(** the integer divisions are given explicitly in terms of earlier ones *)
Definition wf_ls (f : aff) : Prop := wf_divs (a_d f) (a_div f) /\ known (a_div f) /\ length (a_v f) = (2 + a_d f + a_n f)%nat.
(** an expression that is not NaN *)
Definition wf_aff (f : aff) : Prop := wf_ls f /\ (0 < nth 0 (a_v f) 0)%Z.
(** NaN *)
Definition nan_aff (f : aff) : Prop := wf_ls f /\ forall i, nth i (a_v f) 0%Z = 0%Z.
(** the greatest integer that is not greater and the least integer that is not smaller *)
Definition is_floor (r : Q) (n : Z) : Prop := inject_Z n <= r /\ r < inject_Z (n + 1).
Definition is_ceil (r : Q) (n : Z) : Prop := r <= inject_Z n /\ inject_Z (n - 1) < r.
(** the rational coefficient at position [c]: 1 is the constant term, then come the variables and the integer divisions *)
Definition coef (f : aff) (c : nat) : Q := inject_Z (nth c (a_v f) 0%Z) / inject_Z (nth 0 (a_v f) 0%Z).
(** what that coefficient is multiplied by: position 0 is one, then come the values of the variables and of the integer divisions *)
Definition position_value (f : aff) (v : list Z) (k : nat) (x : Z) : Prop := exists w, sat (a_d f) (a_div f) w /\ firstn (1 + a_d f) w = v /\ nth k w 0%Z = x.
(** the rational number that a value represents *)
Definition vq (v : val) : Q := inject_Z (vn v) / inject_Z (vd v).
(** the value of an affine expression at a rational point with homogeneous coordinates [v];
    [u] contains the values of the integer divisions *)
Fixpoint qdot (l : list Z) (w : list Q) : Q := match l, w with a :: l', b :: w' => inject_Z a * b + qdot l' w' | _, _ => 0 end.
Definition rat_value (f : aff) (v : list Q) (r : Q) : Prop :=
  length v = (1 + a_d f)%nat /\ exists u : list Z, length u = a_n f /\
    (forall i, (i < a_n f)%nat -> is_floor (qdot (skipn 1 (nth i (a_div f) [])) (v ++ map inject_Z u) / inject_Z (nth 0 (nth i (a_div f) []) 0%Z)) (nth i u 0%Z)) /\
    inject_Z (nth 0 (a_v f) 0%Z) * r == qdot (skipn 1 (a_v f)) (v ++ map inject_Z u).
(** a list of expressions on the same domain, one for each output dimension *)
Definition wf_maff (m : maff) : Prop :=
  wf (m_sp m) /\ (length (m_p m) = n_out (m_sp m))%nat /\ (forall f, List.In f (m_p m) -> wf_aff f /\ a_d f = (nparam (m_sp m) + n_in (m_sp m))%nat) /\
  forall f g, List.In f (m_p m) -> List.In g (m_p m) -> is_equal (a_sp f) (a_sp g) = true.
(** the expressions use the same integer divisions *)
Definition aligned (m : maff) : Prop := forall f g, List.In f (m_p m) -> List.In g (m_p m) -> a_div f = a_div g.
(** [g] is [f] with the coefficient at position [c] given the value [q] *)
Definition changes (f g : aff) (c : nat) (q : Q) : Prop :=
  a_sp g = a_sp f /\ a_div g = a_div f /\ wf_aff g /\ forall i, (1 <= i)%nat -> (coef g i == if Nat.eqb i c then q else coef f i)%Q.
