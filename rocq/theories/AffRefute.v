(** Operations on affine expressions that do not do what is expected of them. *)
From Coq Require Import ZArith List Bool QArith Arith Lia.
From Verif Require Import SeqModel SeqSpec MatModel ValModel LocalModel LocalSpec SpaceModel SpaceSpec QpModel QpSpec QpRefute AffModel AffSpec.
Import ListNotations.
Open Scope Z_scope.

(** a set space and a map space without identifiers *)
Definition ssp (d : nat) : space := mksp 0 0 d (Some id_none) None None None None.
Definition msp (i o : nat) : space := mksp 0 i o None None None None None.
Definition no_junk (i : nat) : Z := 0.
Lemma wf_divs_nil d : wf_divs d [] /\ known [].
Proof. split; intros i H; cbn in H; lia. Qed.
Lemma wf_flat d v : length v = (2 + d)%nat -> 0 < nth 0 v 0 -> wf_aff (mkaff (ssp d) [] v).
Proof. intros L P. split; [split; [exact (proj1 (wf_divs_nil _))|]; split; [exact (proj2 (wf_divs_nil 0))|cbn [a_v]; rewrite L; cbn; lia]|exact P]. Qed.
Lemma nan_flat d : nan_aff (mkaff (ssp d) [] (repeat 0 (2 + d))).
Proof. split; [split; [exact (proj1 (wf_divs_nil _))|]; split; [exact (proj2 (wf_divs_nil 0))|cbn [a_v]; rewrite repeat_length; cbn; lia]|]. intros i. apply nth_repeat. Qed.
Definition minus_one : aff := mkaff (ssp 0) [] [1; -1].
Lemma div_alias : exists g h, wf_aff minus_one /\ avalue minus_one [1] (-1)%Q /\
  aff_div true minus_one minus_one = Ok g /\ ~ wf_aff g /\ avalue g [1] 1%Q /\ aff_ceil g = Ok h /\ avalue h [1] 3%Q.
Proof.
  eexists. eexists. split; [apply wf_flat; [reflexivity|cbn; lia]|]. split; [exists [1]; split; [split; [reflexivity|]; split; [reflexivity|intros i H; cbn in H; lia]|split; reflexivity]|].
  split; [vm_compute; reflexivity|]. split; [intros (_ & P); cbn in P; lia|].
  split; [exists [1]; split; [split; [reflexivity|]; split; [reflexivity|intros i H; cbn in H; lia]|split; reflexivity]|].
  split; [vm_compute; reflexivity|]. exists [1]; split; [split; [reflexivity|]; split; [reflexivity|intros i H; cbn in H; lia]|split; reflexivity].
Qed.
(** x + y where both are replaced by NaN *)
Definition x_plus_y : aff := mkaff (ssp 2) [] [1; 0; 1; 1].
Definition nan_nan : maff := mkmaff (msp 1 2) [mkaff (ssp 1) [] [0; 0; 0]; mkaff (ssp 1) [] [0; 0; 0]].
(** floor(x/2) where x is replaced by NaN *)
Definition half_x : aff := mkaff (ssp 1) [[2; 0; 1; 0]] [1; 0; 0; 1].
Definition one_nan : maff := mkmaff (msp 1 1) [mkaff (ssp 1) [] [0; 0; 0]].
Lemma pullback_nan : (wf_aff x_plus_y /\ (forall f, List.In f (m_p nan_nan) -> nan_aff f) /\ aff_pullback no_junk x_plus_y nan_nan = UB) /\
  (wf_aff half_x /\ (forall f, List.In f (m_p one_nan) -> nan_aff f) /\ aff_pullback no_junk half_x one_nan = UB).
Proof.
  split; (split; [|split; [|vm_compute; reflexivity]]).
  - apply wf_flat; [reflexivity|cbn; lia].
  - intros f [<-|[<-|[]]]; apply (nan_flat 1).
  - split; [|cbn; lia]. split; [|split; [|reflexivity]].
    + intros i Hi. cbn in Hi. assert (i = 0%nat) by lia. subst i. split; [reflexivity|]. split; [cbn; lia|]. intros j Hj. cbn in Hj. destruct j as [|[|[|[|j]]]]; try lia; try reflexivity. cbn. destruct j; reflexivity.
    + intros i Hi. cbn in Hi. assert (i = 0%nat) by lia. subst i. cbn. lia.
  - intros f [<-|[]]; apply (nan_flat 1).
Qed.
