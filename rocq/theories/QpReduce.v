(** Reduction of the integer divisions of a quasi-polynomial: normalize_div, reduce_div, invert_div and the
    substitution of the integer divisions with denominator one. *)
From Coq Require Import ZArith List Bool QArith Arith Lia ZifyBool Setoid.
From Verif Require Import SeqModel SeqSpec SeqProofs MatModel ValModel LocalModel LocalSpec LocalProofs BMapModel BMapLists SpaceModel PolyModel PolySpec PolyBase PolyOps PolyOps2 PolyThms QpModel QpSpec QpProofs.
From Verif Require BElimFM BMapGauss2 RdivMore RdivCoal SimpDrop.
Import ListNotations.
Open Scope Z_scope.

Definition rowok (d n j : nat) (r : list Z) : Prop := length r = (2 + d + n)%nat /\ 0 < nth 0 r 0 /\ forall k, (2 + d + j <= k)%nat -> nth k r 0 = 0.
Definition divs (d n : nat) (M : mat) : Prop := length M = n /\ forall j, (j < n)%nat -> rowok d n j (nth j M []).
Definition shape (d n : nat) (mat : mat) : Prop := length mat = n /\ forall k, (k < n)%nat -> length (nth k mat []) = (1 + d + n)%nat.
Definition vals (d n : nat) (M : mat) (w : list Z) : Prop :=
  length w = (1 + d + n)%nat /\ nth 0 w 0 = 1 /\ forall j, (j < n)%nat -> nth (1 + d + j) w 0 = dot (skipn 1 (nth j M [])) w / nth 0 (nth j M []) 0.
Definition st (d n : nat) (S1 S2 : mat * mat) : Prop :=
  divs d n (fst S1) -> shape d n (snd S1) ->
  divs d n (fst S2) /\ shape d n (snd S2) /\ (flat d (fst S1) -> flat d (fst S2)) /\
  forall w, vals d n (fst S1) w -> exists w', vals d n (fst S2) w' /\ firstn (1 + d) w' = firstn (1 + d) w /\
    forall k, (k < n)%nat -> dot (nth k (snd S2) []) w' = dot (nth k (snd S1) []) w.
Lemma divs_wf d M : divs d (length M) M <-> wf_divs d M /\ known M.
Proof.
  split.
  - intros (_ & H). split; intros j Hj; destruct (H j Hj) as (A & B & C); [split; [exact A|split; [lia|exact C]]|lia].
  - intros (W & K). split; [reflexivity|]. intros j Hj. destruct (W j Hj) as (A & B & C). specialize (K j Hj). split; [exact A|]. split; [lia|exact C].
Qed.
Lemma vals_sat d M w : divs d (length M) M -> (vals d (length M) M w <-> sat d M w).
Proof.
  intros (_ & H). split; intros (A & B & C); (split; [exact A|]; split; [exact B|]).
  - intros j Hj _. apply C. exact Hj.
  - intros j Hj. apply C; [exact Hj|]. destruct (H j Hj) as (_ & P & _). lia.
Qed.
Lemma st_refl d n X : st d n X X.
Proof. intros A B. split; [exact A|]. split; [exact B|]. split; [auto|]. intros w Hw. exists w. auto. Qed.
Lemma st_trans d n X Y W : st d n X Y -> st d n Y W -> st d n X W.
Proof.
  intros A B D1 S1. destruct (A D1 S1) as (D2 & S2 & F2 & H2). destruct (B D2 S2) as (D3 & S3 & F3 & H3). split; [exact D3|]. split; [exact S3|]. split; [auto|].
  intros w Hw. destruct (H2 w Hw) as (w' & V' & P' & E'). destruct (H3 w' V') as (w'' & V'' & P'' & E''). exists w''. split; [exact V''|]. split; [congruence|]. intros k Hk. rewrite E'', E' by exact Hk. reflexivity.
Qed.

(** ** normalize_div *)
Lemma dot_skip1 (r w : list Z) : (2 <= length r)%nat -> nth 0 w 0 = 1 -> w <> [] -> dot (skipn 1 r) w = nth 1 r 0 + dot (skipn 2 r) (tl w).
Proof. destruct r as [|a [|b r]]; cbn; try lia. destruct w as [|x w]; [congruence|]. cbn. intros _ -> _. lia. Qed.
Lemma nth_down l g j : nth j (seq_scale_down l g) 0 = nth j l 0 / g.
Proof.
  unfold seq_scale_down. destruct (Nat.lt_ge_cases j (length l)) as [H|H].
  - rewrite nth_indep with (d' := divexact 0 g) by (rewrite map_length; exact H). rewrite (map_nth (fun x => divexact x g)). reflexivity.
  - rewrite !nth_overflow by (rewrite ?map_length; lia). destruct g; reflexivity.
Qed.
Lemma normalize_div_ok d n j r : rowok d n j r -> rowok d n j (normalize_div r) /\ (forall k, (2 <= k)%nat -> nth k r 0 = 0 -> nth k (normalize_div r) 0 = 0) /\
  forall w, nth 0 w 0 = 1 -> w <> [] -> dot (skipn 1 (normalize_div r)) w / nth 0 (normalize_div r) 0 = dot (skipn 1 r) w / nth 0 r 0.
Proof.
  intros (L & P & Z0). unfold normalize_div. set (g := Z.gcd (seq_gcd (skipn 2 r)) (nth 0 r 0)).
  assert (Hg : 0 < g). { assert (0 <= g) by apply Z.gcd_nonneg. assert (g <> 0); [|lia]. intros E. unfold g in E. apply Z.gcd_eq_0 in E. lia. }
  destruct (Z.eqb_spec g 1) as [E1|E1]; [split; [split; [exact L|split; [exact P|exact Z0]]|]; split; [auto|reflexivity]|].
  assert (Dd : (g | nth 0 r 0)) by apply Z.gcd_divide_r.
  assert (Dc : forall x, List.In x (skipn 2 r) -> (g | x)). { intros x Hx. apply Z.divide_trans with (seq_gcd (skipn 2 r)); [apply Z.gcd_divide_l|]. destruct (seq_gcd_ok (skipn 2 r)) as (_ & A & _). apply A. exact Hx. }
  destruct Dd as (den & Ed). assert (Hden : 0 < den) by nia. assert (Edx : divexact (nth 0 r 0) g = den) by (unfold divexact; rewrite Ed; apply Z.div_mul; lia).
  assert (Nk : forall k, (2 <= k)%nat -> nth k (divexact (nth 0 r 0) g :: fdiv_q (nth 1 r 0) g :: seq_scale_down (skipn 2 r) g) 0 = nth k r 0 / g).
  { intros k Hk. destruct k as [|[|k]]; try lia. cbn [nth]. rewrite nth_down, SeqProofs.nth_skipn. reflexivity. }
  split; [|split].
  - split; [cbn [length]; unfold seq_scale_down; rewrite map_length, skipn_length; lia|]. split; [cbn [nth]; rewrite Edx; exact Hden|]. intros k Hk. rewrite Nk by lia. rewrite Z0 by exact Hk. apply Z.div_0_l. lia.
  - intros k Hk Ek. rewrite Nk, Ek by exact Hk. apply Z.div_0_l. lia.
  - intros w Hw Nw. rewrite (dot_skip1 r w) by (assumption || lia). rewrite (RdivMore.dot_divided g (skipn 2 r) (tl w) Hg Dc). rewrite dot_skip1 by (assumption || (cbn [length]; lia)). set (K := seq_scale_down (skipn 2 r) g). cbn [nth]. change (skipn 2 (divexact (nth 0 r 0) g :: fdiv_q (nth 1 r 0) g :: K)) with K. rewrite Edx, Ed. unfold fdiv_q.
    set (s := dot K (tl w)). rewrite (Z.mul_comm den g), <- Z.div_div by lia. f_equal. replace (nth 1 r 0 + g * s) with (nth 1 r 0 + s * g) by ring. rewrite Z.div_add by lia. reflexivity.
Qed.
(** replacing one row by an equivalent one *)
Lemma st_row d n i M mat r : (i < n)%nat -> (divs d n M -> rowok d n i r /\ (forall k, (2 <= k)%nat -> nth k (nth i M []) 0 = 0 -> nth k r 0 = 0) /\
  forall w, nth 0 w 0 = 1 -> w <> [] -> dot (skipn 1 r) w / nth 0 r 0 = dot (skipn 1 (nth i M [])) w / nth 0 (nth i M []) 0) -> st d n (M, mat) (lset M i r, mat).
Proof.
  intros Hi H D S1. cbn [fst snd] in *. destruct (H D) as (R & F & E). destruct D as (L & D).
  split; [split; [rewrite lset_length; exact L|]|split; [exact S1|split]].
  - intros j Hj. rewrite nth_lset by lia. destruct (Nat.eqb_spec j i) as [->|]; [exact R|apply D; exact Hj].
  - intros Fl j k Hk. rewrite nth_lset by lia. destruct (Nat.eqb_spec j i) as [->|]; [apply F; [lia|apply Fl; exact Hk]|apply Fl; exact Hk].
  - intros w (Lw & W0 & V). exists w. split; [|split; reflexivity]. split; [exact Lw|]. split; [exact W0|]. intros j Hj. rewrite nth_lset by lia. destruct (Nat.eqb_spec j i) as [->|]; [|apply V; exact Hj].
    rewrite E; [apply V; exact Hi|exact W0|]. intros ->. cbn in Lw. lia.
Qed.
Lemma st_normalize d n i M mat : (i < n)%nat -> st d n (M, mat) (lset M i (normalize_div (nth i M [])), mat).
Proof. intros Hi. apply st_row; [exact Hi|]. intros (L & D). apply normalize_div_ok. apply D. exact Hi. Qed.

(** ** one step of reduce_div *)
Lemma nth_skip1 (r : list Z) k : nth k (skipn 1 r) 0 = nth (1 + k) r 0.
Proof. destruct r; [destruct k; reflexivity|reflexivity]. Qed.
Lemma skip1_upd (r : list Z) k a : skipn 1 (zupd r (1 + k) a) = zupd (skipn 1 r) k a.
Proof. destruct r; [destruct k; reflexivity|reflexivity]. Qed.
Lemma nth0_upd (r : list Z) k a : nth 0 (zupd r (S k) a) 0 = nth 0 r 0.
Proof. destruct r; reflexivity. Qed.
Lemma firstn_upd (w : list Z) k : forall m a, (m <= k)%nat -> firstn m (zupd w k a) = firstn m w.
Proof. revert k. induction w as [|x w IH]; intros [|k] [|m] a H; cbn; try reflexivity; try lia. f_equal. apply IH. lia. Qed.
Lemma st_reduce1 d n div i M mat : (div < n)%nat -> (i < 1 + d + div)%nat ->
  let r := nth div M [] in let den := nth 0 r 0 in let c := nth (1 + i) r 0 in let v := fdiv_q c den in
  st d n (M, mat)
    (map (fun j => let rj := nth j M [] in if Nat.eqb j div then zupd r (1 + i) (fdiv_r c den) else if Nat.ltb div j then zupd rj (1 + i) (nth (1 + i) rj 0 + v * nth (2 + d + div) rj 0) else rj) (seq 0 (length M)),
     map (fun m => zupd m i (nth i m 0 + v * nth (1 + d + div) m 0)) mat).
Proof.
  intros Hd Hi r den c v (L & D) (Lm & Sm). cbn [fst snd] in *.
  set (f := fun j => let rj := nth j M [] in if Nat.eqb j div then zupd r (1 + i) (fdiv_r c den) else if Nat.ltb div j then zupd rj (1 + i) (nth (1 + i) rj 0 + v * nth (2 + d + div) rj 0) else rj).
  assert (Nf : forall j, (j < n)%nat -> nth j (map f (seq 0 (length M))) [] = f j) by (intros j Hj; apply RdivCoal.nth_mapseq; lia).
  destruct (D div Hd) as (Lr & Pr & Zr). fold r in Lr, Pr, Zr. fold den in Pr.
  assert (Z2 : forall j k, (j < n)%nat -> (2 + d + j <= k)%nat -> nth k (f j) 0 = 0).
  { intros j k Hj Hk. unfold f. cbv zeta. destruct (Nat.eqb_spec j div) as [->|]; [|destruct (Nat.ltb_spec div j)].
    - rewrite nth_zupd. destruct (Nat.eqb_spec k (1 + i)); [lia|]. cbn [andb]. apply Zr. exact Hk.
    - destruct (D j Hj) as (_ & _ & Zj). rewrite nth_zupd. destruct (Nat.eqb_spec k (1 + i)); [lia|]. cbn [andb]. apply Zj. exact Hk.
    - destruct (D j Hj) as (_ & _ & Zj). apply Zj. exact Hk. }
  split; [|split; [|split]].
  - split; [rewrite map_length, seq_length; exact L|]. intros j Hj. rewrite Nf by exact Hj. split; [|split; [|intros k Hk; apply Z2; assumption]]; unfold f; cbv zeta.
    + destruct (Nat.eqb_spec j div) as [->|]; [rewrite zupd_length; exact Lr|]. destruct (D j Hj) as (Lj & _). destruct (Nat.ltb div j); rewrite ?zupd_length; exact Lj.
    + destruct (Nat.eqb_spec j div) as [->|]; [rewrite nth0_upd; exact Pr|]. destruct (D j Hj) as (_ & Pj & _). destruct (Nat.ltb div j); [change (1 + i)%nat with (S i); rewrite nth0_upd|]; exact Pj.
  - split; [rewrite map_length; exact Lm|]. intros k Hk. rewrite nth_indep with (d' := zupd [] i (nth i [] 0 + v * nth (1 + d + div) [] 0)) by (rewrite map_length; lia). rewrite (map_nth (fun m => zupd m i (nth i m 0 + v * nth (1 + d + div) m 0))). rewrite zupd_length. apply Sm. exact Hk.
  - intros Fl j k Hk. destruct (Nat.lt_ge_cases j n) as [Hj|Hj]; [|rewrite nth_overflow with (n := j) by (rewrite map_length, seq_length; lia); destruct k; reflexivity].
    rewrite Nf by exact Hj. unfold f. cbv zeta. destruct (Nat.eqb_spec j div) as [->|]; [|destruct (Nat.ltb_spec div j)].
    + rewrite nth_zupd. destruct (Nat.eqb_spec k (1 + i)) as [->|]; cbn [andb]; [|apply Fl; exact Hk]. assert (E : c = 0) by (apply Fl; exact Hk). unfold fdiv_r. rewrite E, Z.mod_0_l by lia. destruct (Nat.ltb _ _); [reflexivity|exact E].
    + rewrite nth_zupd. destruct (Nat.eqb_spec k (1 + i)) as [->|]; cbn [andb]; [|apply Fl; exact Hk]. rewrite !Fl by lia. destruct (Nat.ltb _ _); ring.
    + apply Fl. exact Hk.
  - intros w (Lw & W0 & V). set (x := nth i w 0). exists (zupd w (1 + d + div) (nth (1 + d + div) w 0 - v * x)).
    assert (Hp : (1 + d + div < length w)%nat) by lia. assert (Xi : nth i (zupd w (1 + d + div) (nth (1 + d + div) w 0 - v * x)) 0 = x) by (rewrite nth_zupd; destruct (Nat.eqb_spec i (1 + d + div)); [lia|reflexivity]).
    assert (Dt : forall s, dot s (zupd w (1 + d + div) (nth (1 + d + div) w 0 - v * x)) = dot s w - v * x * nth (1 + d + div) s 0) by (intros s; rewrite BElimFM.dot_upd by exact Hp; ring).
    split; [|split; [apply firstn_upd; lia|]].
    + split; [rewrite zupd_length; exact Lw|]. split; [change (1 + d + div)%nat with (S (d + div)); rewrite nth0_upd; exact W0|]. intros j Hj. rewrite Nf by exact Hj. specialize (V j Hj). rewrite nth_zupd. destruct (D j Hj) as (Lj & Pj & Zj). unfold f. cbv zeta.
      destruct (Nat.eqb_spec j div) as [->|Nj].
      * rewrite Nat.eqb_refl. destruct (Nat.ltb_spec (1 + d + div) (length w)); [|lia]. cbn [andb]. rewrite nth0_upd, skip1_upd, dot_zupd by (rewrite skipn_length; fold r in Lr; lia). rewrite Dt, Xi, !nth_skip1. fold r. fold c. replace (1 + (1 + d + div))%nat with (2 + d + div)%nat by lia. rewrite Zr by lia. fold r in V. fold den in V |- *. rewrite V.
        replace (dot (skipn 1 r) w - v * x * 0 + (fdiv_r c den - c) * x) with (dot (skipn 1 r) w + (- (v * x)) * den). { rewrite Z.div_add by lia. ring. } unfold fdiv_r, v, fdiv_q. assert (DM : c mod den = c - den * (c / den)) by (pose proof (Z.div_mod c den ltac:(lia)); lia). rewrite DM. ring.
      * destruct (Nat.eqb_spec (1 + d + j) (1 + d + div)); [lia|]. cbn [andb]. destruct (Nat.ltb_spec div j).
        -- rewrite nth0_upd, skip1_upd, dot_zupd by (rewrite skipn_length; lia). rewrite Dt, Xi, !nth_skip1. replace (1 + (1 + d + div))%nat with (2 + d + div)%nat by lia. rewrite V. f_equal. ring.
        -- rewrite Dt, nth_skip1, Zj by lia. rewrite V. f_equal. ring.
    + intros k Hk. rewrite nth_indep with (d' := zupd [] i (nth i [] 0 + v * nth (1 + d + div) [] 0)) by (rewrite map_length; lia). rewrite (map_nth (fun m => zupd m i (nth i m 0 + v * nth (1 + d + div) m 0))).
      rewrite dot_zupd by (rewrite Sm by exact Hk; lia). rewrite Dt, Xi. ring.
Qed.
Lemma st_reduce d n div : (div < n)%nat -> forall is M mat, Forall (fun i => (i < 1 + d + div)%nat) is -> st d n (M, mat) (reduce_div d div is M mat).
Proof.
  intros Hd. induction is as [|i is IH]; intros M mat F; [apply st_refl|]. inversion F as [|? ? Hi F']; subst. cbn [reduce_div]. cbv zeta. destruct (_ && _); [apply IH; exact F'|].
  eapply st_trans; [apply (st_reduce1 d n div i M mat Hd Hi)|]. cbv zeta. apply IH. exact F'.
Qed.

(** ** invert_div *)
Lemma st_invert d n div M mat : (div < n)%nat -> st d n (M, mat) (invert_div d div M mat).
Proof.
  intros Hd (L & D) (Lm & Sm). cbn [fst snd] in *. unfold invert_div. cbn [fst snd].
  destruct (D div Hd) as (Lr & Pr & Zr). set (r := nth div M []) in *. set (den := nth 0 r 0) in *.
  set (r' := den :: match seq_neg (skipn 1 r) with [] => [] | c :: t => (c - 1 + den) :: t end).
  assert (Er : r' = den :: (- nth 1 r 0 - 1 + den) :: map Z.opp (skipn 2 r)). { unfold r'. destruct r as [|a [|b r0]]; cbn in Lr; try lia. reflexivity. }
  set (f := fun rj => zupd rj (2 + d + div) (- nth (2 + d + div) rj 0)).
  assert (Nf : forall j, (j < n)%nat -> nth j (map f (lset M div r')) [] = f (if Nat.eqb j div then r' else nth j M [])).
  { intros j Hj. rewrite nth_indep with (d' := f []) by (rewrite map_length, lset_length; lia). rewrite map_nth, nth_lset by lia. reflexivity. }
  assert (No : forall k, nth k (map Z.opp (skipn 2 r)) 0 = - nth (2 + k) r 0). { intros k. change 0 with (- 0) at 1. rewrite map_nth. rewrite SeqProofs.nth_skipn. reflexivity. }
  assert (Nr : forall k, (2 <= k)%nat -> nth k r' 0 = - nth k r 0) by (intros k Hk; rewrite Er; destruct k as [|[|k]]; try lia; apply No).
  assert (Lr' : length r' = (2 + d + n)%nat) by (rewrite Er; cbn [length]; rewrite map_length, skipn_length; lia).
  assert (Nz : forall k rj, nth k rj 0 = 0 -> nth k (f rj) 0 = 0). { intros k rj H. unfold f. rewrite nth_zupd. destruct (Nat.eqb_spec k (2 + d + div)) as [->|]; cbn [andb]; [rewrite H; destruct (Nat.ltb _ _); reflexivity|exact H]. }
  split; [|split; [|split]].
  - split; [rewrite map_length, lset_length; exact L|]. intros j Hj. rewrite Nf by exact Hj. destruct (D j Hj) as (Lj & Pj & Zj). destruct (Nat.eqb_spec j div) as [->|].
    + split; [unfold f; rewrite zupd_length; exact Lr'|]. split; [unfold f; change (2 + d + div)%nat with (S (1 + d + div)); rewrite nth0_upd; exact Pr|]. intros k Hk. apply Nz. rewrite Nr by lia. rewrite Zr by exact Hk. reflexivity.
    + split; [unfold f; rewrite zupd_length; exact Lj|]. split; [unfold f; change (2 + d + div)%nat with (S (1 + d + div)); rewrite nth0_upd; exact Pj|]. intros k Hk. apply Nz. apply Zj. exact Hk.
  - split; [rewrite map_length; exact Lm|]. intros k Hk. rewrite nth_indep with (d' := zupd [] (1 + d + div) (- nth (1 + d + div) [] 0)) by (rewrite map_length; lia). rewrite (map_nth (fun m => zupd m (1 + d + div) (- nth (1 + d + div) m 0))), zupd_length. apply Sm. exact Hk.
  - intros Fl j k Hk. destruct (Nat.lt_ge_cases j n) as [Hj|Hj]; [|rewrite nth_overflow with (n := j) by (rewrite map_length, lset_length; lia); destruct k; reflexivity].
    rewrite Nf by exact Hj. apply Nz. destruct (Nat.eqb j div); [|apply Fl; exact Hk]. rewrite Nr by lia. unfold r. rewrite Fl by exact Hk. reflexivity.
  - intros w (Lw & W0 & V). assert (Hp : (1 + d + div < length w)%nat) by lia. set (w' := zupd w (1 + d + div) (- nth (1 + d + div) w 0)). exists w'.
    assert (Dt : forall s, dot s w' = dot s w - 2 * nth (1 + d + div) w 0 * nth (1 + d + div) s 0) by (intros s; unfold w'; rewrite BElimFM.dot_upd by exact Hp; ring).
    assert (Wp : nth (1 + d + div) w' 0 = - nth (1 + d + div) w 0). { unfold w'. rewrite nth_zupd, Nat.eqb_refl. destruct (Nat.ltb_spec (1 + d + div) (length w)); [reflexivity|lia]. }
    assert (Df : forall s, (1 + d + div < length s)%nat -> dot (zupd s (1 + d + div) (- nth (1 + d + div) s 0)) w' = dot s w). { intros s Hs. rewrite dot_zupd by exact Hs. rewrite Dt, Wp. ring. }
    split; [|split; [apply firstn_upd; lia|]].
    + split; [unfold w'; rewrite zupd_length; exact Lw|]. split; [unfold w'; change (1 + d + div)%nat with (S (d + div)); rewrite nth0_upd; exact W0|].
      intros j Hj. rewrite Nf by exact Hj. pose proof (V j Hj) as Vj. destruct (D j Hj) as (Lj & Pj & Zj). unfold f. change (2 + d + div)%nat with (1 + (1 + d + div))%nat. rewrite skip1_upd, <- nth_skip1.
      change (zupd (if Nat.eqb j div then r' else nth j M []) (1 + (1 + d + div))) with (zupd (if Nat.eqb j div then r' else nth j M []) (S (1 + d + div))). rewrite nth0_upd. rewrite Df by (rewrite skipn_length; destruct (Nat.eqb j div); lia).
      destruct (Nat.eqb_spec j div) as [->|Nj].
      * rewrite Wp, Vj. fold r. fold den. replace (nth 0 r' 0) with den by (rewrite Er; reflexivity). assert (Ne : w <> []) by (intros ->; cbn in Lw; lia). rewrite (dot_skip1 r' w), (dot_skip1 r w) by (assumption || lia). rewrite Er at 1. cbn [nth]. replace (skipn 2 r') with (map Z.opp (skipn 2 r)) by (rewrite Er; reflexivity). rewrite dot_opp.
        set (s := dot (skipn 2 r) (tl w)). replace (- nth 1 r 0 - 1 + den + - s) with (- (nth 1 r 0 + s) + (den - 1)) by ring. set (e := nth 1 r 0 + s). apply Z.div_unique with (r := den - 1 - e mod den); [left; pose proof (Z.mod_pos_bound e den Pr); lia|]. pose proof (Z.div_mod e den ltac:(lia)). nia.
      * unfold w' at 1. rewrite nth_zupd. destruct (Nat.eqb_spec (1 + d + j) (1 + d + div)); [lia|]. cbn [andb]. exact Vj.
    + intros k Hk. rewrite nth_indep with (d' := zupd [] (1 + d + div) (- nth (1 + d + div) [] 0)) by (rewrite map_length; lia). rewrite (map_nth (fun m => zupd m (1 + d + div) (- nth (1 + d + div) m 0))). apply Df. rewrite Sm by exact Hk. lia.
Qed.
Lemma st_reduce_loop d n : forall rows M mat, Forall (fun i => (i < n)%nat) rows -> st d n (M, mat) (reduce_loop d rows M mat).
Proof.
  induction rows as [|i rows IH]; intros M mat F; [apply st_refl|]. inversion F as [|? ? Hi F']; subst. cbn [reduce_loop]. cbv zeta.
  assert (Fs : Forall (fun k => (k < 1 + d + i)%nat) (seq 0 (1 + d + i))) by (apply Forall_forall; intros k Hk; apply in_seq in Hk; lia).
  eapply st_trans; [apply (st_normalize d n i M mat Hi)|]. set (M1 := lset M i (normalize_div (nth i M []))).
  pose proof (st_reduce d n i Hi (seq 0 (1 + d + i)) M1 mat Fs) as R1. destruct (reduce_div d i (seq 0 (1 + d + i)) M1 mat) as (M2, m2). eapply st_trans; [exact R1|].
  destruct (needs_invert (nth i M2 [])); [|apply IH; exact F'].
  pose proof (st_invert d n i M2 m2 Hi) as R2. destruct (invert_div d i M2 m2) as (M3, m3). eapply st_trans; [exact R2|].
  pose proof (st_reduce d n i Hi (seq 0 (1 + d + i)) M3 m3 Fs) as R3. destruct (reduce_div d i (seq 0 (1 + d + i)) M3 m3) as (M4, m4). eapply st_trans; [exact R3|]. apply IH. exact F'.
Qed.
