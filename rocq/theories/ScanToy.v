(** Two tableaus that meet the expectations of ScanSpec.v: intervals, which can be
    executed, and systems of constraints with operations that exist by
    classical logic. *)
From Coq Require Import ZArith List Bool Arith Lia Znumtheory.
From Coq Require ClassicalEpsilon.
From Verif Require Import SeqModel SeqSpec SeqProofs MatModel BMapModel BMapSpec BMapSem LocalModel ScanModel ScanSpec ScanBase ScanLoop.
Import ListNotations.
Open Scope Z_scope.

(** ** intervals *)
Definition itab : Type := Z * Z.
Fixpoint ibounds (l : list (list Z)) (t : itab) : option itab :=
  match l with
  | [] => Some t
  | r :: l =>
    match ibounds l t with
    | Some (lo, hi) =>
      match r with
      | [c; a] => if a =? 1 then Some (Z.max lo (- c), hi) else if a =? -1 then Some (lo, Z.min hi c) else None
      | _ => None
      end
    | None => None
    end
  end.
(** only one variable, no equalities, a lower and an upper bound first *)
Definition ifrom (b : bmap) : res itab :=
  if (total b =? 1)%nat && negb (b_empty b) then
    match b_eq b, b_ineq b with
    | [], [c; a] :: [c'; a'] :: l =>
      if (a =? 1) && (a' =? -1) then match ibounds l (- c, c') with Some t => Ok t | None => Null end else Null
    | _, _ => Null
    end
  else Null.
Definition ireduce (n : nat) (t : itab) : res (itab * list (list Z)) := Ok (t, [[0; 1]]).
Definition imin (t : itab) (row : list Z) : lp * itab :=
  if snd t <? fst t then (LpEmpty, t)
  else
    match row with
    | [0; 1] => (LpOk (fst t), t)
    | [0; -1] => (LpOk (- snd t), t)
    | _ => (LpError, t)
    end.
Definition isnap (t : itab) : itab * itab := (t, t).
Definition iback (t s : itab) : res itab := Ok s.
Definition iadd (t : itab) (row : list Z) : res itab :=
  match row with [c; 1] => Ok (- c, - c) | _ => Null end.
Definition isample (t : itab) : res (list Z) := Ok [1; fst t].
Definition iden (t : itab) (d : sys) : Prop := forall p, rpoint 1 p -> (sat d p <-> fst t * hd 0 p <= nth 1 p 0 <= snd t * hd 0 p).
Definition iRep (n : nat) (t : itab) (st : list (itab * sys)) (d : sys) : Prop := n = 1%nat /\ iden t d /\ Forall (fun x => iden (fst x) (snd x)) st.
Lemma two_points p : rpoint 1 p -> exists k x, p = [k; x] /\ 0 < k.
Proof. intros (L & H). destruct p as [|k [|x [|y p]]]; try discriminate L. exists k, x. auto. Qed.
Lemma ibounds_ok l : forall t t', ibounds l t = Some t' -> forall k x, 0 < k -> (fst t' * k <= x <= snd t' * k <-> (fst t * k <= x <= snd t * k) /\ Forall (nonneg_on [k; x]) l).
Proof.
  induction l as [|r l IH]; intros t t' E k x K; cbn [ibounds] in E.
  - injection E as <-. split; [intros H; split; [exact H|constructor]|tauto].
  - destruct (ibounds l t) as [(lo & hi)|] eqn:EL; [|discriminate E]. specialize (IH t (lo, hi) EL k x K). cbn [fst snd] in IH. rewrite Forall_cons_iff.
    destruct r as [|c [|a [|? ?]]]; try discriminate E. destruct (Z.eqb_spec a 1) as [->|]; [|destruct (Z.eqb_spec a (-1)) as [->|]; [|discriminate E]]; injection E as <-; cbn [fst snd]; unfold nonneg_on at 1; cbn [dot]; split.
    + intros H. assert (lo * k <= x <= hi * k) by nia. split; [tauto|]. split; [nia|tauto].
    + intros (A & B & C). assert (lo * k <= x <= hi * k) by tauto. destruct (Z.max_spec lo (- c)) as [(_ & ->)|(_ & ->)]; nia.
    + intros H. assert (lo * k <= x <= hi * k) by nia. split; [tauto|]. split; [nia|tauto].
    + intros (A & B & C). assert (lo * k <= x <= hi * k) by tauto. destruct (Z.min_spec hi c) as [(_ & ->)|(_ & ->)]; nia.
Qed.
Lemma interval_tableau : tableau itab itab ifrom ireduce imin isnap iback iadd isample iRep.
Proof.
  constructor.
  - intros b t W E. unfold ifrom in E. destruct (Nat.eqb_spec (total b) 1) as [T|]; cbn [andb] in E; [|discriminate E]. destruct (b_empty b) eqn:EE; cbn [negb] in E; [discriminate E|].
    destruct (b_eq b) eqn:EQ; [|discriminate E]. destruct (b_ineq b) as [|[|c [|a [|? ?]]] [|[|c' [|a' [|? ?]]] l]] eqn:EI; try discriminate E.
    destruct (Z.eqb_spec a 1) as [->|]; cbn [andb] in E; [|discriminate E]. destruct (Z.eqb_spec a' (-1)) as [->|]; [|discriminate E]. destruct (ibounds l (- c, c')) as [t'|] eqn:EB; [|discriminate E]. injection E as <-.
    rewrite T. split; [reflexivity|]. split; [|constructor]. intros p R. destruct (two_points p R) as (k & x & -> & K). cbn [hd nth]. rewrite (ibounds_ok l _ t' EB k x K). unfold sat, of_bset, system. cbn [s_empty s_eq s_ineq fst snd]. rewrite EE, EQ, EI, !Forall_cons_iff. unfold nonneg_on at 1 2. cbn [dot].
    split; [intros (_ & _ & A & B & C); split; [lia|exact C]|]. intros (A & C). split; [reflexivity|]. split; [constructor|]. split; [lia|]. split; [lia|exact C].
  - intros n t st d t' B (-> & D & F) [= <- <-]. split; [split; auto|]. split; [reflexivity|]. split; [constructor; [split; reflexivity|constructor]|]. split.
    + intros y L. destruct y as [|y [|? ?]]; try discriminate L. exists [y]. split; [reflexivity|]. cbn [map tl dot]. f_equal. lia.
    + intros x x' L L' E. destruct x as [|x [|? ?]]; try discriminate L. destruct x' as [|x' [|? ?]]; try discriminate L'. cbn [map tl dot] in E. apply (f_equal (hd 0)) in E. cbn [hd] in E. f_equal. lia.
  - intros n t st d row r t' (-> & D & F) LR HR E. unfold imin in E. destruct (Z.ltb_spec (snd t) (fst t)) as [C|C].
    + injection E as <- <-. split; [split; auto|]. intros p R S. apply (D p R) in S. pose proof (proj2 R). nia.
    + destruct row as [|z [|a [|? ?]]]; try discriminate LR. cbn in HR. subst z.
      assert (OKP : forall x, fst t <= x <= snd t -> rpoint 1 [1; x] /\ sat d [1; x]) by (intros x H; split; [split; [reflexivity|cbn; lia]|]; apply D; [split; [reflexivity|cbn; lia]|cbn [hd nth]; lia]).
      assert (G : a = 1 /\ (r, t') = (LpOk (fst t), t) \/ a = -1 /\ (r, t') = (LpOk (- snd t), t) \/ r = LpError /\ t' = t) by (destruct a as [|[| |]|[| |]]; injection E as <- <-; auto).
      destruct G as [(-> & G)|[(-> & G)|(-> & ->)]]; [| |split; [split; auto|exact I]]; injection G as -> ->; (split; [split; auto|]); (split; [intros p R S; apply (D p R) in S; destruct (two_points p R) as (k & x & -> & K); cbn [dot hd nth] in *; nia|]).
      * exists [1; fst t]. destruct (OKP (fst t) ltac:(lia)) as (A & B). split; [exact A|]. split; [exact B|]. cbn [dot hd]. lia.
      * exists [1; snd t]. destruct (OKP (snd t) ltac:(lia)) as (A & B). split; [exact A|]. split; [exact B|]. cbn [dot hd]. lia.
  - intros n t st d s t' (-> & D & F) [= <- <-]. split; [reflexivity|]. split; [exact D|]. constructor; [exact D|exact F].
  - intros n t l s d0 st d t' (-> & D & F) [= <-]. apply Forall_app in F. destruct F as (_ & F). split; [reflexivity|]. split; [exact (Forall_inv F)|exact F].
  - intros n t st d row t' (-> & D & F) LR (p0 & R0 & S0 & Z0) E. destruct row as [|c [|a [|? ?]]]; try discriminate LR. cbn [iadd] in E. destruct a as [|[| |]|]; try discriminate E. injection E as <-. split; [reflexivity|]. split; [|exact F].
    intros p R. rewrite sat_and_eq. destruct (two_points p R) as (k & x & -> & K). destruct (two_points p0 R0) as (k0 & x0 & -> & K0). apply (D _ R0) in S0. rewrite (D _ R). cbn [fst snd hd nth dot] in *. split; [intros (A & B); lia|]. intros A. assert (x = - c * k) by lia. assert (x0 = - c * k0) by lia. subst. split; [nia|lia].
  - intros n t st d v (-> & D & F) (p & R & S) [= <-]. apply (D p R) in S. pose proof (proj2 R). assert (RV : rpoint 1 [1; fst t]) by (split; [reflexivity|cbn; lia]). split; [exact RV|]. split; [apply (D _ RV); cbn [hd nth]; nia|]. intros g G. apply (G O).
Qed.

(** ** systems *)
Definition ctab : Type := sys.
Definition pick (Q : lp -> Prop) : lp := if ClassicalEpsilon.excluded_middle_informative (exists r, Q r) then ClassicalEpsilon.epsilon (inhabits LpError) Q else LpError.
Definition min_of (n : nat) (d : sys) (row : list Z) (r : lp) : Prop :=
  match r with
  | LpOk v => rounded_min n d row v
  | LpEmpty => forall p, rpoint n p -> ~ sat d p
  | LpUnbounded => forall k, exists p, rpoint n p /\ sat d p /\ dot row p < k * hd 0 p
  | LpError => False
  end.
Lemma min_exists n d row : exists r, min_of n d row r.
Proof.
  destruct (ClassicalEpsilon.excluded_middle_informative (exists p, rpoint n p /\ sat d p)) as [(p0 & R0 & S0)|N]; [|exists LpEmpty; intros p R S; apply N; exists p; auto].
  destruct (ClassicalEpsilon.excluded_middle_informative (forall k, exists p, rpoint n p /\ sat d p /\ dot row p < k * hd 0 p)) as [U|N]; [exists LpUnbounded; exact U|].
  assert (LB : exists k, forall p, rpoint n p -> sat d p -> k * hd 0 p <= dot row p).
  { destruct (ClassicalEpsilon.excluded_middle_informative (exists k, forall p, rpoint n p -> sat d p -> k * hd 0 p <= dot row p)) as [H|H]; [exact H|]. destruct N. intros k. destruct (ClassicalEpsilon.excluded_middle_informative (exists p, rpoint n p /\ sat d p /\ dot row p < k * hd 0 p)) as [X|X]; [exact X|]. destruct H. exists k. intros p R S. destruct (Z.le_gt_cases (k * hd 0 p) (dot row p)) as [Y|Y]; [exact Y|]. destruct X. exists p. auto. }
  destruct LB as (k & K). assert (UP : exists u, exists p, rpoint n p /\ sat d p /\ dot row p <= (k + Z.of_nat u) * hd 0 p).
  { exists (Z.to_nat (Z.abs (dot row p0) + Z.abs k)). exists p0. split; [exact R0|]. split; [exact S0|]. pose proof (proj2 R0). rewrite Z2Nat.id by lia. nia. }
  destruct UP as (u & UP). revert UP. induction u as [|u IH]; intros UP.
  - exists (LpOk k). split; [intros p R S; pose proof (K p R S); pose proof (proj2 R); nia|]. destruct UP as (p & R & S & X). exists p. split; [exact R|]. split; [exact S|]. nia.
  - destruct (ClassicalEpsilon.excluded_middle_informative (exists p, rpoint n p /\ sat d p /\ dot row p <= (k + Z.of_nat u) * hd 0 p)) as [X|X]; [exact (IH X)|]. exists (LpOk (k + Z.of_nat (S u))). split; [|exact UP]. intros p R SP. destruct (Z.lt_ge_cases ((k + Z.of_nat (S u) - 1) * hd 0 p) (dot row p)) as [Y|Y]; [exact Y|]. destruct X. exists p. split; [exact R|]. split; [exact SP|]. nia.
Qed.
Definition unit_row (n i : nat) : list Z := 0 :: map (fun j => if (j =? i)%nat then 1 else 0) (seq 0 n).
Definition cRep (n : nat) (t : nat * sys) (st : list ((nat * sys) * sys)) (d : sys) : Prop :=
  fst t = n /\ (forall p, rpoint n p -> (sat (snd t) p <-> sat d p)) /\ Forall (fun x => fst (fst x) = n /\ forall p, rpoint n p -> (sat (snd (fst x)) p <-> sat (snd x) p)) st.
Definition cfrom (b : bmap) : res (nat * sys) := Ok (total b, of_bset b).
Definition creduce (n : nat) (t : nat * sys) : res ((nat * sys) * list (list Z)) := Ok (t, map (unit_row n) (seq 0 n)).
Definition cmin (t : nat * sys) (row : list Z) : lp * (nat * sys) := (pick (min_of (fst t) (snd t) row), t).
Definition csnap (t : nat * sys) : (nat * sys) * (nat * sys) := (t, t).
Definition cback (t s : nat * sys) : res (nat * sys) := Ok s.
Definition cadd (t : nat * sys) (row : list Z) : res (nat * sys) := Ok (fst t, and_eq row (snd t)).
Definition reduced (n : nat) (d : sys) (v : list Z) : Prop := rpoint n v /\ sat d v /\ forall g, (forall i, (g | nth i v 0)) -> (g | 1).
Definition csample (t : nat * sys) : res (list Z) := Ok (ClassicalEpsilon.epsilon (inhabits []) (reduced (fst t) (snd t))).
Lemma units n : forall x, length x = n -> map (fun r => dot (tl r) x) (map (unit_row n) (seq 0 n)) = x.
Proof.
  intros x L. rewrite map_map. apply nth_ext with (d := dot (tl (unit_row n O)) x) (d' := 0); [rewrite map_length, seq_length; auto|]. intros i H. rewrite map_length, seq_length in H.
  rewrite (map_nth (fun i => dot (tl (unit_row n i)) x) (seq 0 n) O i). rewrite seq_nth by exact H. cbn [tl unit_row Nat.add]. unfold unit_row. cbn [tl]. clear -L H. revert x i L H. 
  assert (G : forall m s x i, length x = m -> (i < m)%nat -> dot (map (fun j => if (j =? s + i)%nat then 1 else 0) (seq s m)) x = nth i x 0).
  { induction m as [|m IH]; intros s x i L H; [lia|]. destruct x as [|y x]; [discriminate L|]. cbn [seq map dot]. destruct i as [|i].
    - rewrite Nat.add_0_r, Nat.eqb_refl. cbn [nth]. rewrite (map_ext_in _ (fun _ => 0)).
      + assert (Z0 : forall (l : list nat) (w : list Z), dot (map (fun _ => 0) l) w = 0) by (induction l as [|? l IHl]; intros [|? w]; cbn [map dot]; try reflexivity; rewrite IHl; lia). rewrite Z0. lia.
      + intros j J. apply in_seq in J. destruct (Nat.eqb_spec j s); [lia|reflexivity].
    - destruct (Nat.eqb_spec s (s + S i)); [lia|]. cbn [nth]. rewrite <- (IH (S s) x i ltac:(injection L; auto) ltac:(lia)). replace (S s + i)%nat with (s + S i)%nat by lia. lia. }
  intros x i L H. exact (G n O x i L H).
Qed.
Lemma reduced_exists n d : (exists p, rpoint n p /\ sat d p) -> exists v, reduced n d v.
Proof.
  intros (p & R & S). remember (Z.to_nat (hd 0 p)) as k eqn:K. revert p R S K. induction k as [k IH] using (well_founded_induction lt_wf). intros p R S K.
  destruct (ClassicalEpsilon.excluded_middle_informative (exists g, 1 < g /\ forall i, (g | nth i p 0))) as [(g & G & D)|N].
  - assert (E : p = map (fun y => g * y) (map (fun x => x / g) p)).
    { rewrite map_map. rewrite <- (map_id p) at 1. apply map_ext_in. intros x IX. apply In_nth with (d := 0) in IX. destruct IX as (i & _ & <-). apply Zdivide_Zdiv_eq; [lia|apply D]. }
    assert (HD : hd 0 p = g * hd 0 (map (fun x => x / g) p)) by (destruct p as [|x p]; [destruct R; discriminate|]; cbn [map hd]; apply Zdivide_Zdiv_eq; [lia|apply (D O)]).
    destruct R as (LR & HR). apply (IH (Z.to_nat (hd 0 (map (fun x => x / g) p)))) with (p := map (fun x => x / g) p); [subst k; nia|split; [rewrite map_length; exact LR|nia]| |reflexivity]. rewrite E in S. apply sat_scale in S; [exact S|lia].
  - exists p. split; [exact R|]. split; [exact S|]. intros g G. destruct (Z_lt_le_dec 1 (Z.abs g)) as [L|L].
    + destruct N. exists (Z.abs g). split; [exact L|]. intros i. apply Z.divide_abs_l, G.
    + assert (g = 0 \/ g = 1 \/ g = -1) as [->|[->| ->]] by lia; [|exists 1; reflexivity|exists (-1); reflexivity]. specialize (G O). destruct G as (z & G). destruct R as (LR & HR). destruct p; cbn in *; [discriminate|lia].
Qed.
Lemma pick_ok (Q : lp -> Prop) : (exists r, Q r) -> Q (pick Q).
Proof. intros H. unfold pick. destruct (ClassicalEpsilon.excluded_middle_informative _) as [X|X]; [apply ClassicalEpsilon.epsilon_spec, H|contradiction]. Qed.
Lemma system_tableau : tableau (nat * sys) (nat * sys) cfrom creduce cmin csnap cback cadd csample cRep.
Proof.
  constructor.
  - intros b t W [= <-]. split; [reflexivity|]. split; [reflexivity|constructor].
  - intros n t st d t' B R [= <- <-]. split; [exact R|]. split; [rewrite map_length, seq_length; reflexivity|]. split.
    + rewrite Forall_map, Forall_forall. intros i _. unfold unit_row. cbn [length hd]. rewrite map_length, seq_length. auto.
    + split; [intros y L; exists y; split; [exact L|apply units, L]|]. intros x x' L L' E. rewrite !units in E by assumption. exact E.
  - intros n t st d row r t' (<- & D & F) LR HR [= <- <-]. split; [split; auto|]. pose proof (pick_ok _ (min_exists (fst t) (snd t) row)) as P. destruct (pick _) as [|v| |]; cbn [min_of] in P; [exact I| | |].
    + destruct P as (A & p & R & S & X). split; [intros q RQ SQ; apply A; [exact RQ|apply D; auto]|]. exists p. split; [exact R|]. split; [apply D; auto|exact X].
    + intros k. destruct (P k) as (p & R & S & X). exists p. split; [exact R|]. split; [apply D; auto|exact X].
    + intros p R S. apply (P p R), D; auto.
  - intros n t st d s t' (L & D & F) [= <- <-]. split; [exact L|]. split; [exact D|]. constructor; [split; [exact L|exact D]|exact F].
  - intros n t l s d0 st d t' (L & D & F) [= <-]. apply Forall_app in F. destruct F as (_ & F). pose proof (Forall_inv F) as (A & B). split; [exact A|]. split; [exact B|exact F].
  - intros n t st d row t' (L & D & F) LR _ [= <-]. split; [exact L|]. split; [|exact F]. intros p R. cbn [snd]. rewrite !sat_and_eq, (D p R). reflexivity.
  - intros n t st d v (<- & D & F) (p & R & S) [= <-]. assert (X : exists v, reduced (fst t) (snd t) v) by (apply reduced_exists; exists p; split; [exact R|apply D; auto]). pose proof (ClassicalEpsilon.epsilon_spec (inhabits []) (reduced (fst t) (snd t)) X) as (A & B & C). split; [exact A|]. split; [apply D; auto|exact C].
Qed.
Lemma system_reliable : reliable (nat * sys) (nat * sys) cfrom creduce cmin cback cadd csample cRep.
Proof.
  constructor.
  - intros b _. eexists. reflexivity.
  - intros. eexists. reflexivity.
  - intros n t st d row R _. cbn [cmin fst]. pose proof (pick_ok _ (min_exists (fst t) (snd t) row)) as P. intros E. rewrite E in P. exact P.
  - intros. eexists. reflexivity.
  - intros. eexists. reflexivity.
  - intros. eexists. reflexivity.
Qed.
