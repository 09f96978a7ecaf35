(** isl_basic_map_drop_redundant_divs keeps the points. *)
From Coq Require Import ZArith List Bool Arith Lia Permutation.
From Verif Require Import SeqModel SeqSpec SeqProofs MatModel BMapModel BMapSpec BMapSem BMapLists BMapNorm BMapGauss BMapGauss2 BMapOrder BDupModel BDupProofs BElimModel BElimSpec BElimSort BElimCols
  BElimProofs BElimFM BElimVars LocalModel SimpModel SimpSpec SimpBase SimpDrop SimpDivs SimpShift SimpDups SimpIneq SimpFinal SetBase SetLift RdivModel RdivSpec RdivStep RdivElim RdivMore RdivSimp RdivCoal RdivSort RdivChange.
Import ListNotations.
Open Scope Z_scope.

(** what the loop over the local variables decides to do *)
Definition lower_count (b : bmap) (d : nat) : nat := length (filter (fun r => 0 <? nth (dpos b d) r 0) (b_ineq b)).
Definition upper_count (b : bmap) (d : nat) : nat := length (filter (fun r => nth (dpos b d) r 0 <? 0) (b_ineq b)).
Definition decided (b : bmap) (c : choice) : Prop :=
  match c with
  | Drop_unbounded d => (d < ndiv b)%nat /\ unused b d /\ free_of b d /\
      (Forall (fun r => nth (dpos b d) r 0 <= 0) (b_ineq b) \/ Forall (fun r => 0 <= nth (dpos b d) r 0) (b_ineq b))
  | Set_eq j => exists d, (d < ndiv b)%nat /\ free_of b d /\ (j < length (b_ineq b))%nat /\ icoef b d j = 1 /\ lower_count b d = 1%nat
  | Fix_lower d j lo => (d < ndiv b)%nat /\ free_of b d /\ (j < length (b_ineq b))%nat /\ 0 < icoef b d j /\ lower_count b d = 1%nat /\ lower_bound_is_cst b d j = Some lo
  | Drop_pair d i j => (d < ndiv b)%nat /\ unused b d /\ free_of b d /\ (i < length (b_ineq b))%nat /\ (j < length (b_ineq b))%nat /\ 0 < icoef b d i /\ icoef b d j < 0 /\ lower_count b d = 1%nat /\ upper_count b d = 1%nat /\
      is_opposite b i j = true /\ icoef b d i <= hd 0 (nth i (b_ineq b) []) + hd 0 (nth j (b_ineq b) []) + 1
  | Set_div d i => exists j, (d < ndiv b)%nat /\ (i < length (b_ineq b))%nat /\ (j < length (b_ineq b))%nat /\ 0 < icoef b d i /\ is_opposite b i j = true /\
      hd 0 (nth i (b_ineq b) []) + hd 0 (nth j (b_ineq b) []) < icoef b d i /\ ok_to_set_div_from_bound b d i = true
  | Go_on pairs _ => good_pairs b pairs
  end.
Lemma good_pairs_set b pairs i x : good_pairs b pairs -> (i < ndiv b)%nat /\ unused b i /\ free_of b i -> good_pairs b (lset pairs i x).
Proof.
  intros H Hi k Hk. destruct (Nat.eq_dec k i) as [->|N]; [exact Hi|]. apply H. rewrite GistFull.nth_lset_neq in Hk by exact N. exact Hk.
Qed.
Lemma ineq_loop_ok b : good b -> ordered b -> forall k i pairs n c, (i + k = ndiv b)%nat -> good_pairs b pairs -> ineq_loop k b i pairs n = Ok c -> decided b c.
Proof.
  intros G O. induction k as [|k IH]; intros i pairs n c Hk GP; cbn [ineq_loop]; [intros [= <-]; exact GP|]. destruct (any_div_involves_div b i) eqn:EA; [apply IH; [lia|exact GP]|]. pose proof (not_involved b i O EA) as U.
  destruct (existsb _ (b_eq b)) eqn:EE; [apply IH; [lia|exact GP]|]. assert (Hi : (i < ndiv b)%nat) by lia. assert (F : free_of b i).
  { apply Forall_forall. intros r Hr. destruct (Z.eq_dec (nth (dpos b i) r 0) 0) as [|N]; [assumption|]. exfalso. assert (X : existsb (fun r => negb (nth (dpos b i) r 0 =? 0)) (b_eq b) = true) by (apply existsb_exists; exists r; split; [exact Hr|]; apply negb_true_iff, Z.eqb_neq; exact N). congruence. }
  cbv zeta. fold (lower_count b i) (upper_count b i).
  destruct (last_such (fun r => 0 <? nth (dpos b i) r 0) (b_ineq b) 0 None) as [lp|] eqn:EP.
  2:{ intros [= <-]. apply last_such_none in EP as [_ EP]. cbn [decided]. repeat (split; [assumption|]). left. revert EP. apply Forall_impl. intros r Hr. apply Z.ltb_ge in Hr. exact Hr. }
  destruct (last_such (fun r => nth (dpos b i) r 0 <? 0) (b_ineq b) 0 None) as [ln|] eqn:EN.
  2:{ intros [= <-]. apply last_such_none in EN as [_ EN]. cbn [decided]. repeat (split; [assumption|]). right. revert EN. apply Forall_impl. intros r Hr. apply Z.ltb_ge in Hr. exact Hr. }
  apply last_such_ok in EP as [EP|[HP EP]]; [discriminate EP|]. apply last_such_ok in EN as [EN|[HN EN]]; [discriminate EN|]. rewrite Nat.sub_0_r in EP, EN. apply Z.ltb_lt in EP. apply Z.ltb_lt in EN. fold (icoef b i lp) in EP. fold (icoef b i ln) in EN.
  assert (GO : forall x m, ineq_loop k b (S i) (lset pairs i x) m = Ok c -> decided b c) by (intros x m; apply IH; [lia|]; apply good_pairs_set; auto).
  destruct (Nat.eqb (lower_count b i * upper_count b i) 1 && is_opposite b lp ln) eqn:EO; cbn [negb].
  - apply andb_true_iff in EO as [E1 E2]. apply Nat.eqb_eq in E1. apply Nat.eq_mul_1 in E1 as [C1 C2].
    destruct (Z.leb_spec (icoef b i lp) (hd 0 (nth lp (b_ineq b) []) + hd 0 (nth ln (b_ineq b) []) + 1)) as [LE|GT].
    + intros [= <-]. cbn [decided]. repeat (split; [first [assumption|lia]|]). exact LE.
    + destruct ((hd 0 (nth i (b_div b) []) =? 0) && ok_to_set_div_from_bound b i lp) eqn:ES; [|apply GO]. intros [= <-]. apply andb_true_iff in ES as [_ ES]. exists ln. repeat (split; [first [assumption|lia]|]). exact ES.
  - destruct (Nat.eqb_spec (lower_count b i) 1) as [C1|]; cbn [negb]; [|apply GO]. destruct (single_unknown b lp i) as [s| | |]; cbn [bind]; try discriminate. destruct s; cbn [negb]; [|apply GO].
    destruct (Z.eqb_spec (icoef b i lp) 1) as [E1|_].
    + intros [= <-]. exists i. repeat (split; [first [assumption|lia]|]). exact C1.
    + destruct (lower_bound_is_cst b i lp) as [lo|] eqn:EL; [|apply GO]. intros [= <-]. cbn [decided]. repeat (split; [first [assumption|lia]|]). exact EL.
Qed.

Section Main.
Variable hash : list Z -> nat.
Variable no_redundant : bmap -> bool.
Variable tab : bmap -> bool * list kind.
Variable sfuel : nat.
Variable tab_empty : bmap -> bool.
Variable tab_min : bmap -> row -> option Z.
Hypothesis TAB : sound_tab tab.
Hypothesis TE : sound_empty tab_empty.
Hypothesis TM : sound_min tab_min.
Theorem drop_redundant_pres : forall fuel b b', good b -> ordered b -> drop_redundant_divs hash no_redundant tab sfuel tab_empty tab_min fuel b = Ok b' -> pres b b' /\ ordered b'.
Proof.
  induction fuel as [|fuel IH]; intros b b' G O; cbn [drop_redundant_divs]; [discriminate|].
  set (again := drop_redundant_divs hash no_redundant tab sfuel tab_empty tab_min fuel) in *. set (simp := simplify hash no_redundant tab sfuel) in *.
  set (ineq := fun b =>
      if Nat.eqb (ndiv b) 0 then Ok b
      else
        let! c := ineq_loop (ndiv b) b 0 (repeat 0%nat (ndiv b)) 0 in
        match c with
        | Drop_unbounded i => again (drop_unbounded b i)
        | Set_eq j => let! b := simp (inequality_to_equality b j) in again b
        | Fix_lower i j lower => let! b := fix_div hash no_redundant tab sfuel b i (lower_bound_from_parallel b j lower (dpos b i)) in again b
        | Drop_pair i j1 j2 => again (drop_div (drop_two b j1 j2) i)
        | Set_div i j => let! b := simp (set_div_from_lower_bound b i j) in again b
        | Go_on pairs O => Ok b
        | Go_on pairs n =>
          match find_coalesce b pairs with
          | Some (i, c, l, u) => again (coalesce_divs b i c l u)
          | None =>
            if b_empty b then Ok b
            else
              let! m := more_loop tab_empty tab_min n b pairs false in
              match m with
              | Remove i => let! b := remove_div hash no_redundant tab sfuel b i in again b
              | Mark_empty => Ok (set_to_empty b)
              | Nothing => Ok b
              end
          end
        end).
  change ((let! first := first_unknown_div b in
    if Nat.eqb first (ndiv b) then ineq b
    else if Nat.eqb (length (b_eq b)) 0 then ineq b
    else
      let! b := bmap_sort_divs b in
      let! first := first_unknown_div b in
      match find_unknown_eq b first with
      | None => ineq b
      | Some (r, l) =>
        let! b := change_unknown b r l in
        let! b := simp b in
        again b
      end) = Ok b' -> pres b b' /\ ordered b').
  assert (STEP : forall c d, pres c d -> ordered d -> again d = Ok b' -> pres c b' /\ ordered b').
  { intros c d P Od H. destruct (IH d b' (proj1 (proj2 P)) Od H) as [P2 O2]. split; [eapply pres_trans; eassumption|exact O2]. }
  assert (INEQ : forall c, good c -> ordered c -> ineq c = Ok b' -> pres c b' /\ ordered b').
  { clear b G O. intros b G O. unfold ineq. destruct (Nat.eqb (ndiv b) 0) eqn:E0; [intros [= <-]; split; [apply pres_refl; exact G|exact O]|]. apply Nat.eqb_neq in E0. destruct (good_int b 0%nat G ltac:(lia)) as [RF EF].
    destruct (ineq_loop (ndiv b) b 0 (repeat 0%nat (ndiv b)) 0) as [c| | |] eqn:EL; cbn [bind]; try discriminate. apply (ineq_loop_ok b G O) in EL; [|lia|intros k Hk; exfalso; apply Hk; apply nth_repeat].
    destruct c as [d|j|d j lo|d i j|d i|pairs n]; cbn [decided] in EL.
    - destruct EL as (Hd & U & F & S). destruct (drop_unbounded_pres b d G O Hd U F S) as [P1 O1]. apply (STEP b _ P1 O1).
    - destruct EL as (d & Hd & F & Hj & C & N). pose proof (set_eq_pres b d j G Hd F Hj C N) as P1. destruct (simp (inequality_to_equality b j)) as [b1| | |] eqn:ES; cbn [bind]; try discriminate.
      destruct (simplify_ordered hash no_redundant tab TAB _ _ _ (proj1 (proj2 P1)) ES) as [P2 O2]. apply (STEP b b1); [eapply pres_trans; eassumption|exact O2].
    - destruct EL as (Hd & F & Hj & C & N & L). destruct (fix_div hash no_redundant tab sfuel b d _) as [b1| | |] eqn:ES; cbn [bind]; try discriminate. destruct (fix_div_ok hash no_redundant tab sfuel TAB b d j lo b1 G Hd F Hj C N L ES) as [P1 O1]. apply (STEP b b1 P1 O1).
    - destruct EL as (Hd & U & F & Hi & Hj & C1 & C2 & N1 & N2 & Op & LE). destruct (drop_pair_pres b d i j G O Hd U F Hi Hj C1 C2 N1 N2 Op LE) as [P1 O1]. apply (STEP b _ P1 O1).
    - destruct EL as (j & Hd & Hi & Hj & C & Op & LT & OK). pose proof (set_div_pres b d i j G Hd Hi Hj C Op LT OK) as P1. destruct (simp (set_div_from_lower_bound b d i)) as [b1| | |] eqn:ES; cbn [bind]; try discriminate.
      destruct (simplify_ordered hash no_redundant tab TAB _ _ _ (proj1 (proj2 P1)) ES) as [P2 O2]. apply (STEP b b1); [eapply pres_trans; eassumption|exact O2].
    - destruct n as [|n]; [intros [= <-]; split; [apply pres_refl; exact G|exact O]|]. destruct (find_coalesce b pairs) as [[[[d1 d2] l] u]|] eqn:EC.
      + destruct (coalesce_pres b pairs d1 d2 l u G O EL (find_coalesce_ok _ _ _ _ _ _ EC)) as [P1 O1]. apply (STEP b _ P1 O1).
      + rewrite EF. destruct (more_loop tab_empty tab_min (S n) b pairs false) as [m| | |] eqn:EM; cbn [bind]; try discriminate. apply (more_loop_ok tab_empty tab_min TM b (proj1 G) EF) in EM; [|exact EL]. destruct m as [d| |].
        * destruct EM as (Hd & F & X). destruct (remove_div hash no_redundant tab sfuel b d) as [b1| | |] eqn:ER; cbn [bind]; try discriminate. destruct (remove_div_ok hash no_redundant tab sfuel TAB b d b1 G O Hd F X ER) as [P1 O1]. apply (STEP b b1 P1 O1).
        * intros [= <-]. assert (P1 : pres b (set_to_empty b)); [|split; [exact P1|apply bare_ordered; [exact (proj1 (proj2 P1))|]; unfold set_to_empty; rewrite EF; reflexivity]]. apply pres_set_empty; [exact G|]. intros q Lq [_ Hq] (_ & e & Le & Se). specialize (Hq RF). apply (TE b (proj1 G) EF EM (q ++ e)); [|destruct q; [discriminate Hq|cbn in *; lia]|exact Se]. rewrite app_length. unfold total. lia.
        * intros [= <-]. split; [apply pres_refl; exact G|exact O]. }
  destruct (first_unknown_div b) as [first| | |]; cbn [bind]; try discriminate. destruct (Nat.eqb first (ndiv b)); [apply INEQ; assumption|]. destruct (Nat.eqb (length (b_eq b)) 0); [apply INEQ; assumption|].
  destruct (bmap_sort_divs b) as [b1| | |] eqn:ES; cbn [bind]; try discriminate. destruct (sort_divs_pres b b1 G ES) as [P1 O1]. pose proof (proj1 (proj2 P1)) as G1. destruct (first_unknown_div b1) as [first1| | |]; cbn [bind]; try discriminate.
  destruct (find_unknown_eq b1 first1) as [[r l]|] eqn:EU; [|intros H; destruct (INEQ b1 G1 O1 H) as [P2 O2]; split; [eapply pres_trans; eassumption|exact O2]].
  destruct (find_unknown_ok b1 first1 r l EU (proj1 G1)) as [Hr Hl]. destruct (change_unknown b1 r l) as [b2| | |] eqn:EC; cbn [bind]; try discriminate. pose proof (change_unknown_pres b1 r l b2 G1 O1 Hr Hl EC) as P2.
  destruct (simp b2) as [b3| | |] eqn:E3; cbn [bind]; try discriminate. destruct (simplify_ordered hash no_redundant tab TAB _ _ _ (proj1 (proj2 P2)) E3) as [P3 O3]. apply (STEP b b3); [|exact O3]. eapply pres_trans; [exact P1|]. eapply pres_trans; eassumption.
Qed.
End Main.
