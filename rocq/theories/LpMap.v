(** The optimum computed by isl_map_solve_lp. *)
From Coq Require Import ZArith List Bool Arith Lia.
From Verif Require Import SeqModel SeqSpec SeqProofs MatModel BMapModel BMapSpec BMapSem TabModel TabBase LpModel LpSpec LpMin LpSolve.
Import ListNotations.
Open Scope Z_scope.

Definition neg_lp (o : lp) : lp := match o with Lp_ok a d => Lp_ok (- a) d | _ => o end.
Lemma neg_lp_invol o : neg_lp (neg_lp o) = o.
Proof. destruct o; cbn; rewrite ?Z.opp_involutive; reflexivity. Qed.
Lemma opp_invol f : map Z.opp (map Z.opp f) = f.
Proof. induction f as [|a f IH]; [reflexivity|]. cbn. rewrite IH, Z.opp_involutive. reflexivity. Qed.
Lemma max_min S f denom a d : maximum S f denom a d <-> minimum S (map Z.opp f) denom (- a) d.
Proof.
  split.
  - intros (Dp & Lo & p & Sp & E). split; [exact Dp|]. split; [intros q Sq; specialize (Lo q Sq); rewrite dot_opp; lia|]. exists p. split; [exact Sp|]. rewrite dot_opp. lia.
  - intros H. apply min_max in H. rewrite Z.opp_involutive in H. exact H.
Qed.
Lemma spec_neg S f denom exact o : opt_spec S f denom true exact o <-> opt_spec S (map Z.opp f) denom false exact (neg_lp o).
Proof.
  destruct o as [| |a d]; cbn [opt_spec neg_lp]; [reflexivity| |].
  - split; intros H B; destruct (H (- B)) as (p & Sp & X); exists p; (split; [exact Sp|]); rewrite dot_opp in *; lia.
  - split; intros (a0 & d0 & M & R).
    + exists (- a0), d0. split; [apply max_min; exact M|]. destruct exact; destruct R as (R1 & R2); [split; congruence|]. split; [exact R1|]. unfold rounded_up, rounded_down in *. lia.
    + exists (- a0), d0. split; [apply max_min; rewrite Z.opp_involutive; exact M|]. destruct exact; destruct R as (R1 & R2); [split; [lia|exact R2]|]. split; [exact R1|]. unfold rounded_up, rounded_down in *. lia.
Qed.
Lemma spec_ext S S' f denom max exact o : (forall q, S q <-> S' q) -> opt_spec S f denom max exact o -> opt_spec S' f denom max exact o.
Proof.
  intros E. destruct o as [| |a d]; cbn [opt_spec].
  - intros H q. rewrite <- E. apply H.
  - destruct max; intros H B; destruct (H B) as (p & Sp & X); exists p; (split; [apply E; exact Sp|exact X]).
  - intros (a0 & d0 & M & R). exists a0, d0. split; [|exact R]. destruct max; destruct M as (M1 & M2 & p & M3 & M4); (split; [exact M1|]); (split; [intros q Sq; apply M2, E; exact Sq|]); exists p; (split; [apply E; exact M3|exact M4]).
Qed.
Lemma min_left (S1 S2 : list Z -> Prop) f denom a d a' d' : (forall q, S1 q \/ S2 q -> 0 < hd 0 q) -> 0 < denom -> minimum S1 f denom a d -> minimum S2 f denom a' d' -> a * d' <= a' * d -> minimum (fun q => S1 q \/ S2 q) f denom a d.
Proof.
  intros Hp Dp (D1 & L1 & p & P1 & E1) (D2 & L2 & _) Le. split; [exact D1|]. split; [|exists p; auto].
  intros q Q. pose proof (Hp q Q) as Hq. destruct Q as [Q|Q]; [apply L1; exact Q|]. specialize (L2 q Q). set (h := denom * hd 0 q) in *. assert (0 < h) by (unfold h; nia). clearbody h.
  assert (a * d' * h <= a' * d * h) by nia. assert (d * (a' * h) <= d * (d' * dot f q)) by nia. nia.
Qed.
Lemma min_swap (S1 S2 : list Z -> Prop) f denom a d : minimum (fun q => S1 q \/ S2 q) f denom a d -> minimum (fun q => S2 q \/ S1 q) f denom a d.
Proof. intros (D & L & p & P & E). split; [exact D|]. split; [intros q Q; apply L; tauto|]. exists p. split; [tauto|exact E]. Qed.
Lemma merge_min (S1 S2 : list Z -> Prop) f denom exact b bd o od : (forall q, S1 q \/ S2 q -> 0 < hd 0 q) -> 0 < denom ->
  opt_spec S1 f denom false exact (Lp_ok b bd) -> opt_spec S2 f denom false exact (Lp_ok o od) ->
  opt_spec (fun q => S1 q \/ S2 q) f denom false exact (if better false (Lp_ok b bd) (Lp_ok o od) then Lp_ok o od else Lp_ok b bd).
Proof.
  intros Hp Dp (b0 & bd0 & Mb & Rb) (o0 & od0 & Mo & Ro). pose proof (proj1 Mb) as Pb. pose proof (proj1 Mo) as Po. cbn [better].
  assert (C : b0 * od0 <= o0 * bd0 \/ o0 * bd0 <= b0 * od0) by lia.
  assert (L : b0 * od0 <= o0 * bd0 -> minimum (fun q => S1 q \/ S2 q) f denom b0 bd0) by (intros H; apply (min_left S1 S2 f denom b0 bd0 o0 od0); auto).
  assert (R : o0 * bd0 <= b0 * od0 -> minimum (fun q => S1 q \/ S2 q) f denom o0 od0) by (intros H; apply min_swap, (min_left S2 S1 f denom o0 od0 b0 bd0); auto; intros q Q; apply Hp; tauto).
  destruct exact.
  - destruct Rb as (-> & ->), Ro as (-> & ->). destruct (Z.ltb_spec (o0 * bd0) (b0 * od0)); [exists o0, od0|exists b0, bd0]; split; auto; apply L || apply R; lia.
  - destruct Rb as (-> & Rb), Ro as (-> & Ro). rewrite !Z.mul_1_r. unfold rounded_up in *. destruct (Z.ltb_spec o b).
    + exists o0, od0. split; [|split; [reflexivity|exact Ro]]. apply R. assert (o0 * bd0 <= o * od0 * bd0) by nia. assert ((b - 1) * bd0 * od0 <= b0 * od0) by nia. assert (o * (od0 * bd0) <= (b - 1) * (od0 * bd0)) by nia. nia.
    + destruct C as [C|C]; [exists b0, bd0; split; [apply L; exact C|split; [reflexivity|exact Rb]]|]. exists o0, od0. split; [apply R; exact C|]. split; [reflexivity|]. split; [|nia].
      assert ((b - 1) * bd0 < b0) by lia. assert (o <= b); [|nia]. destruct (Z_le_gt_dec o b) as [|G]; [assumption|]. exfalso.
      assert (b * od0 <= (o - 1) * od0) by nia. assert (b * od0 < o0) by lia. assert (b * od0 * bd0 < o0 * bd0) by nia. assert (b0 * od0 <= b * bd0 * od0) by nia. nia.
Qed.
Lemma merge (S1 S2 : list Z -> Prop) f denom max exact b bd o od : (forall q, S1 q \/ S2 q -> 0 < hd 0 q) -> 0 < denom ->
  opt_spec S1 f denom max exact (Lp_ok b bd) -> opt_spec S2 f denom max exact (Lp_ok o od) ->
  opt_spec (fun q => S1 q \/ S2 q) f denom max exact (if better max (Lp_ok b bd) (Lp_ok o od) then Lp_ok o od else Lp_ok b bd).
Proof.
  destruct max; [|apply merge_min]. intros Hp Dp Hb Ho. apply spec_neg. apply spec_neg in Hb, Ho. pose proof (merge_min S1 S2 _ denom exact _ _ _ _ Hp Dp Hb Ho) as H.
  assert (E : better true (Lp_ok b bd) (Lp_ok o od) = better false (Lp_ok (- b) bd) (Lp_ok (- o) od)). { cbn [better]. destruct (Z.ltb_spec (b * od) (o * bd)), (Z.ltb_spec (- o * bd) (- b * od)); lia || reflexivity. }
  rewrite E. destruct (better false (Lp_ok (- b) bd) (Lp_ok (- o) od)); exact H.
Qed.
Lemma unb_union (S1 S2 : list Z -> Prop) f denom max exact : opt_spec S2 f denom max exact Lp_unbounded -> opt_spec (fun q => S1 q \/ S2 q) f denom max exact Lp_unbounded.
Proof. cbn. destruct max; intros H B; destruct (H B) as (p & Sp & X); exists p; auto. Qed.
Lemma spec_opt (S : list Z -> Prop) n k f denom max exact o sol : (forall q, S q -> length q = (1 + n)%nat /\ 0 < hd 0 q) -> lp_spec S n k f denom max exact o sol -> opt_spec S f denom max exact o.
Proof.
  intros HS. destruct o as [| |a d]; cbn [lp_spec opt_spec]; [auto| |].
  - intros (Ex & Fl). destruct max; [apply (falls_above S f n HS Ex Fl)|apply (falls_below S f n HS Ex Fl)].
  - intros (a0 & d0 & M & R & _). exists a0, d0. auto.
Qed.
Lemma map_loop_ok fuel n max f denom exact : length f = (1 + n)%nat -> 0 < denom -> forall l (S0 : list Z -> Prop) best sol, (forall b, List.In b l -> wf b /\ acyclic b /\ nvar b = n) ->
  (forall q, S0 q -> length q = (1 + n)%nat /\ 0 < hd 0 q) -> best <> Lp_unbounded -> opt_spec S0 f denom max exact best ->
  wp (map_lp_loop fuel l max f denom exact best sol) (fun '(o, _) => opt_spec (fun q => S0 q \/ in_some l q) f denom max exact o).
Proof.
  intros Lf Dp. induction l as [|b l IH]; intros S0 best sol HW HS Nu Sp.
  { cbn [map_lp_loop wp]. apply (spec_ext S0); [|exact Sp]. intros q. split; [auto|]. intros [H|(b & [] & _)]. exact H. }
  cbn [map_lp_loop]. destruct (HW b (or_introl eq_refl)) as (W & A & Nv). change (f ++ repeat 0 (ndiv b)) with (prog f b). apply wp_bind. eapply wp_weak; [apply (solve_lp_ok fuel b max f denom exact W A); [rewrite Nv; exact Lf|exact Dp]|].
  intros [o s] Ho. apply (spec_opt (pts b) (nvar b) (ndiv b)) in Ho; [|intros q (X & Y & _); auto].
  assert (HS' : forall q, S0 q \/ pts b q -> length q = (1 + n)%nat /\ 0 < hd 0 q). { intros q [H|(X & Y & _)]; [auto|]. rewrite <- Nv. auto. }
  assert (HW' : forall x, List.In x l -> wf x /\ acyclic x /\ nvar x = n) by (intros x Hx; apply HW; right; exact Hx).
  assert (Eq : forall q, (S0 q \/ pts b q) \/ in_some l q <-> S0 q \/ in_some (b :: l) q).
  { intros q. split; [intros [[H|H]|(x & Hx & Px)]; [left; exact H|right; exists b; split; [left; reflexivity|exact H]|right; exists x; split; [right; exact Hx|exact Px]]|].
    intros [H|(x & [<-|Hx] & Px)]; [left; left; exact H|left; right; exact Px|right; exists x; auto]. }
  destruct o as [| |a d].
  - eapply wp_weak; [apply (IH S0 best sol HW' HS Nu Sp)|]. intros [o' s'] H. apply (spec_ext (fun q => S0 q \/ in_some l q)); [|exact H]. intros q. rewrite <- Eq. cbn [opt_spec] in Ho. specialize (Ho q). tauto.
  - cbn [wp]. apply (spec_ext (fun q => S0 q \/ in_some (b :: l) q)); [reflexivity|]. cbn [opt_spec] in *. destruct max; intros B; destruct (Ho B) as (p & Pp & X); exists p; (split; [right; exists b; split; [left; reflexivity|exact Pp]|exact X]).
  - assert (K : opt_spec (fun q => S0 q \/ pts b q) f denom max exact (if match best with Lp_empty => true | _ => better max best (Lp_ok a d) end then Lp_ok a d else best)).
    { destruct best as [| |ba bd]; [|congruence|].
      - apply (spec_ext (pts b)); [|exact Ho]. intros q. cbn [opt_spec] in Sp. specialize (Sp q). tauto.
      - apply merge; auto. intros q Q. apply HS'. exact Q. }
    destruct (match best with Lp_empty => true | _ => better max best (Lp_ok a d) end).
    + eapply wp_weak; [apply (IH (fun q => S0 q \/ pts b q) (Lp_ok a d) (Some s) HW' HS'); [discriminate|exact K]|]. intros [o' s'] H. apply (spec_ext (fun q => (S0 q \/ pts b q) \/ in_some l q)); [exact Eq|exact H].
    + eapply wp_weak; [apply (IH (fun q => S0 q \/ pts b q) best sol HW' HS' Nu K)|]. intros [o' s'] H. apply (spec_ext (fun q => (S0 q \/ pts b q) \/ in_some l q)); [exact Eq|exact H].
Qed.
Lemma map_solve_lp_ok fuel n l max f denom exact : (forall b, List.In b l -> wf b /\ acyclic b /\ nvar b = n) -> length f = (1 + n)%nat -> 0 < denom ->
  wp (map_solve_lp fuel l max f denom exact) (fun '(o, _) => opt_spec (in_some l) f denom max exact o).
Proof.
  intros HW Lf Dp. destruct l as [|b l]; [cbn; intros q (b & [] & _)|]. cbn [map_solve_lp]. destruct (HW b (or_introl eq_refl)) as (W & A & Nv). change (f ++ repeat 0 (ndiv b)) with (prog f b). apply wp_bind.
  eapply wp_weak; [apply (solve_lp_ok fuel b max f denom exact W A); [rewrite Nv; exact Lf|exact Dp]|]. intros [o s] Ho. apply (spec_opt (pts b) (nvar b) (ndiv b)) in Ho; [|intros q (X & Y & _); auto].
  assert (HS : forall q, pts b q -> length q = (1 + n)%nat /\ 0 < hd 0 q) by (intros q (X & Y & _); rewrite <- Nv; auto).
  assert (HW' : forall x, List.In x l -> wf x /\ acyclic x /\ nvar x = n) by (intros x Hx; apply HW; right; exact Hx).
  assert (Eq : forall q, pts b q \/ in_some l q <-> in_some (b :: l) q).
  { intros q. split; [intros [H|(x & Hx & Px)]; [exists b; split; [left; reflexivity|exact H]|exists x; split; [right; exact Hx|exact Px]]|]. intros (x & [<-|Hx] & Px); [left; exact Px|right; exists x; auto]. }
  destruct o as [| |a d].
  - eapply wp_weak; [apply (map_loop_ok fuel n max f denom exact Lf Dp l (pts b) Lp_empty None HW' HS); [discriminate|exact Ho]|]. intros [o' s'] H. apply (spec_ext (fun q => pts b q \/ in_some l q)); [exact Eq|exact H].
  - cbn [wp opt_spec] in *. destruct max; intros B; destruct (Ho B) as (p & Pp & X); exists p; (split; [exists b; split; [left; reflexivity|exact Pp]|exact X]).
  - eapply wp_weak; [apply (map_loop_ok fuel n max f denom exact Lf Dp l (pts b) (Lp_ok a d) None HW' HS); [discriminate|exact Ho]|]. intros [o' s'] H. apply (spec_ext (fun q => pts b q \/ in_some l q)); [exact Eq|exact H].
Qed.
