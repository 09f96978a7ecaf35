(** isl_basic_map_sort_divs keeps the points and the order. *)
From Coq Require Import ZArith List Bool Arith Lia.
From Verif Require Import SeqModel SeqSpec SeqProofs MatModel BMapModel BMapSpec BMapSem BMapLists BMapNorm BMapGauss BMapGauss2 BMapOrder LocalModel SimpModel SimpSpec SimpBase SimpDrop SimpDups BElimCols AffNorm RdivModel.
Import ListNotations.
Open Scope Z_scope.

Lemma sorted_pair b j : good b -> ordered b -> (S j < ndiv b)%nat -> 0 < bmap_cmp_row b j (j + 1) -> hd 0 (nth (S j) (b_div b) []) <> 0 -> nth (2 + nvar b + j) (nth (S j) (b_div b) []) 0 = 0.
Proof.
  intros G O Hj C Hh. destruct (Z.eq_dec (nth (2 + nvar b + j) (nth (S j) (b_div b) []) 0) 0) as [|N]; [assumption|]. exfalso. unfold bmap_cmp_row, cmp_row in C. rewrite Nat.add_1_r in C. set (ri := nth j (b_div b) []) in *. set (rj := nth (S j) (b_div b) []) in *.
  assert (TT : total b = (nvar b + ndiv b)%nat) by reflexivity. assert (H0 : forall r : list Z, nth 0 r 0 = hd 0 r) by (intros []; reflexivity). rewrite !H0 in C. destruct (Z.eqb_spec (hd 0 rj) 0) as [|Zj]; [contradiction|]. rewrite andb_false_r in C.
  assert (Lj : last_nz rj = Z.of_nat (2 + nvar b + j)). { pose proof (last_nz_ge rj _ N). assert (X : last_nz rj < Z.of_nat (2 + nvar b + S j)); [|lia]. apply last_nz_lt. intros k Hk. replace k with (2 + nvar b + (k - (2 + nvar b)))%nat by lia. apply (O (S j) (k - (2 + nvar b))%nat); [lia|lia|exact Hh]. }
  rewrite Lj in C. destruct (Z.eqb_spec (hd 0 ri) 0) as [Zi|Zi].
  - replace (2 + total b - ndiv b + j)%nat with (2 + nvar b + j)%nat in C by lia. rewrite Z.eqb_refl in C. cbn [negb] in C. pose proof G as ((_ & _ & Wd) & _ & D & _). assert (Li : length ri = (2 + total b)%nat) by (apply rows_nth; [exact Wd|change (length (b_div b)) with (ndiv b); lia]). assert (Lr : length rj = (2 + total b)%nat) by (apply rows_nth; [exact Wd|change (length (b_div b)) with (ndiv b); lia]).
    assert (Pj : 0 <= hd 0 rj) by (apply (proj1 (Forall_nth_iff _ _ []) D); exact Hj). destruct ri as [|x ri']; [cbn in Li; lia|]. destruct rj as [|y rj']; [cbn in Lr; lia|]. cbn [hd] in *. subst x. cbn [seq_cmp] in C. assert (X : int_cmp 0 y = -1) by (unfold int_cmp; destruct (Z.ltb_spec 0 y); [reflexivity|lia]). rewrite X in C. cbn in C. lia.
  - assert (Li : last_nz ri < Z.of_nat (2 + nvar b + j)). { apply last_nz_lt. intros k Hk. replace k with (2 + nvar b + (k - (2 + nvar b)))%nat by lia. apply (O j); [lia|lia|exact Zi]. }
    destruct (Z.eqb_spec (last_nz ri) (Z.of_nat (2 + nvar b + j))); cbn [negb] in C; lia.
Qed.
Lemma swap_pres b j : good b -> ordered b -> (S j < ndiv b)%nat -> 0 < bmap_cmp_row b j (j + 1) -> pres b (swap_div b j (j + 1)) /\ ordered (swap_div b j (j + 1)) /\ ndiv (swap_div b j (j + 1)) = ndiv b /\ length (b_eq (swap_div b j (j + 1))) = length (b_eq b).
Proof.
  intros G O Hj C. rewrite Nat.add_1_r. pose proof (sorted_pair b j G O Hj C) as SP. pose proof G as (W & A & D & I & R & B). destruct (swap_div_ok b j (S j) W ltac:(lia) Hj) as (RN & DN & SD). pose proof RN as (SH & W' & _). assert (ND : ndiv (swap_div b j (S j)) = ndiv b) by apply SH. pose proof (proj1 (shape_nvar _ _ SH)) as NV.
  assert (O' : ordered (swap_div b j (S j))).
  { intros k c Hk Hc Hh. rewrite ND in Hk. rewrite NV. destruct (SD k Hk) as [S1 S2]. rewrite S1 in Hh. rewrite S2. unfold tr in *. destruct (Nat.eqb_spec k j) as [->|N1].
    - destruct (Nat.eqb_spec c j) as [->|]; [apply (O (S j)); [exact Hj|lia|exact Hh]|]. destruct (Nat.eqb_spec c (S j)) as [->|]; [apply SP; exact Hh|]. apply (O (S j)); [exact Hj|lia|exact Hh].
    - destruct (Nat.eqb_spec k (S j)) as [->|N2].
      + destruct (Nat.eqb_spec c j); [lia|]. destruct (Nat.eqb_spec c (S j)) as [->|]; apply (O j); try assumption; lia.
      + destruct (Nat.eqb_spec c j) as [->|]; [apply (O k); try assumption; lia|]. destruct (Nat.eqb_spec c (S j)) as [->|]; apply (O k); try assumption; lia. }
  split; [|split; [exact O'|split; [exact ND|unfold swap_div; cbn; apply map_length]]]. split; [apply shape_same; exact SH|]. pose proof SH as (S1 & S2 & S3 & S4 & S5 & S6). split.
  - split; [exact W'|]. split; [apply ordered_acyclic; exact O'|]. split; [auto|]. split; [apply (renames_implied b); assumption|]. split; [rewrite S4, S5; exact R|]. intros F. rewrite S6 in F. destruct (B F) as (B1 & _). unfold ndiv in Hj. rewrite B1 in Hj. cbn in Hj. lia.
  - intros q Lq _. apply renames_points; assumption.
Qed.
Lemma sort_inner_pres : forall jj b, good b -> ordered b -> (jj < ndiv b)%nat -> pres b (sort_divs_inner jj b) /\ ordered (sort_divs_inner jj b) /\ ndiv (sort_divs_inner jj b) = ndiv b.
Proof.
  induction jj as [|j IH]; intros b G O Hj; cbn [sort_divs_inner]; [split; [apply pres_refl; exact G|auto]|]. destruct (Z.leb_spec (bmap_cmp_row b j (j + 1)) 0) as [|C]; [split; [apply pres_refl; exact G|auto]|].
  destruct (swap_pres b j G O Hj C) as (P & O' & ND & _). destruct (IH (swap_div b j (j + 1)) (proj1 (proj2 P)) O' ltac:(lia)) as (P2 & O2 & ND2). split; [eapply pres_trans; eassumption|]. split; [exact O2|lia].
Qed.
Lemma sort_divs_pres b b' : good b -> bmap_sort_divs b = Ok b' -> pres b b' /\ ordered b'.
Proof.
  intros G. unfold bmap_sort_divs. destruct (order_divs b) as [b1| | |] eqn:E; cbn [bind]; try discriminate. intros [= <-]. destruct (order_divs_pres b b1 G E) as (P & O & _).
  assert (K : forall l c, good c -> ordered c -> (forall i, In i l -> (i < ndiv c)%nat) -> pres c (fold_left (fun b i => sort_divs_inner i b) l c) /\ ordered (fold_left (fun b i => sort_divs_inner i b) l c)).
  { induction l as [|i l IH]; intros c Gc Oc Hl; cbn [fold_left]; [split; [apply pres_refl; exact Gc|exact Oc]|]. destruct (sort_inner_pres i c Gc Oc ltac:(apply Hl; left; reflexivity)) as (P1 & O1 & N1).
    destruct (IH (sort_divs_inner i c) (proj1 (proj2 P1)) O1 ltac:(intros k Hk; rewrite N1; apply Hl; right; exact Hk)) as (P2 & O2). split; [eapply pres_trans; eassumption|exact O2]. }
  destruct (K (seq 1 (ndiv b1 - 1)) b1 (proj1 (proj2 P)) O ltac:(intros i Hi; apply in_seq in Hi; lia)) as (P2 & O2). split; [eapply pres_trans; eassumption|exact O2].
Qed.
