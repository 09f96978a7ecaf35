(** Aligned basic maps, sets with integer divisions made explicit. *)
From Coq Require Import ZArith List Bool Arith Lia.
From Verif Require Import SeqModel SeqSpec SeqProofs MatModel MatTheory BMapLists BMapModel BMapSpec BMapSem BMapGauss BMapGauss2 BMapOrder BDupModel BDupProofs LocalModel LocalProofs BElimModel BElimSpec BElimProofs BElimCols SimpModel SimpSpec SimpBase SimpDrop SimpNew SimpFinal SetModel SetSpec SetBase SetLift SetOps SetOps3 SubModel SubBase SubMaps GistModel GistSpec GistFlat GistFull GistAlign.
Import ListNotations.
Open Scope Z_scope.

Lemma order_begins V m D : explicit V m D -> forall fuel b i b', wf b -> nvar b = V -> (m <= ndiv b)%nat -> begins m (b_div b) D -> order_divs_loop fuel b i = Ok b' -> begins m (b_div b') D /\ ndiv b' = ndiv b.
Proof.
  intros EX. induction fuel as [|fuel IH]; intros b i b' W NV LM B; cbn [order_divs_loop]; [discriminate|]. destruct (Nat.leb_spec (ndiv b) i) as [L|L]; [intros [= <-]; auto|]. cbn zeta. destruct (_ =? 0); [apply IH; assumption|].
  pose proof (first_non_zero_ok (skipn (2 + nvar b + i) (nth i (b_div b) []))) as FN. destruct (seq_first_non_zero _) as [[|pos]|]; [discriminate| |apply IH; assumption].
  destruct FN as (FL & FN & _). rewrite skipn_length, (div_len b i W L) in FL. unfold total in FL. assert (HP : (i + S pos < ndiv b)%nat) by lia.
  assert (LI : (m <= i)%nat). { destruct (Nat.lt_ge_cases i m) as [C|C]; [|exact C]. exfalso. apply FN. rewrite nth_skipn, (B i C _). apply (EX i C). lia. }
  destruct (swap_div_ok b i (i + S pos) W L HP) as ((SH & W' & _) & _ & _). intros E. pose proof (swap_div_count b i (i + S pos)) as N1. rewrite <- N1. apply (IH (swap_div b i (i + S pos)) i b' W' NV); [rewrite N1; exact LM| |exact E].
  intros k Hk. rewrite swap_div_row by lia. rewrite NV. replace (tr i (i + S pos) k) with k by (unfold tr; destruct (Nat.eqb_spec k i); [lia|]; destruct (Nat.eqb_spec k (i + S pos)); [lia|reflexivity]). eapply rowlike_trans; [|apply B; exact Hk]. apply swap_row_rowlike; rewrite (B k Hk _); apply (EX k Hk); lia.
Qed.
Lemma begins_explicit V m D D' : begins m D D' -> explicit V m D' -> explicit V m D.
Proof. intros B E k Hk. destruct (E k Hk) as (A & Z). split; [rewrite (rowlike_hd _ _ (B k Hk)); exact A|]. intros c Hc. rewrite (B k Hk c). apply Z. exact Hc. Qed.
(** isl_basic_map_align_divs *)
Lemma align_ok dst src dst' : proper dst -> proper src -> ordered src -> nvar dst = nvar src -> align_divs dst src = Ok dst' ->
  same dst dst' /\ (ndiv src <= ndiv dst')%nat /\ begins (ndiv src) (b_div dst') (b_div src) /\ explicit (nvar src) (ndiv src) (b_div src) /\
  (begins (Nat.min (ndiv dst) (ndiv src)) (b_div dst) (b_div src) -> ndiv dst' = Nat.max (ndiv dst) (ndiv src)) /\ (ordered dst -> ordered dst').
Proof.
  intros P PS OS NV. unfold align_divs. destruct (Nat.eqb_spec (ndiv src) 0) as [N0|N0].
  { intros [= <-]. split; [apply same_refl; exact P|]. rewrite N0. split; [lia|]. split; [intros k Hk; lia|]. split; [intros k Hk; lia|]. split; [intros _; lia|auto]. }
  destruct (has_known_divs src) eqn:K; cbn [negb]; [|discriminate]. pose proof (known_explicit src PS OS K) as EX. destruct (align_loop (ndiv src) 0 dst src) as [d1| | |] eqn:EL; cbn [bind]; try discriminate. intros EO.
  destruct (align_loop_ok (nvar src) src (proj1 PS) eq_refl EX (ndiv src) 0 dst d1 eq_refl P NV ltac:(lia) ltac:(intros k Hk; lia) EL) as (S1 & L1 & B1 & C1). pose proof (proj1 (proj2 S1)) as P1.
  assert (NV1 : nvar d1 = nvar src) by (rewrite (same_at_total _ _ (proj1 S1)); exact NV).
  destruct (order_same d1 dst' P1 EO) as (S2 & O2 & _). destruct (order_begins (nvar src) (ndiv src) (b_div src) EX _ _ _ _ (proj1 P1) NV1 L1 B1 EO) as (B2 & N2).
  split; [exact (same_trans _ _ _ S1 S2)|]. rewrite N2. split; [exact L1|]. split; [exact B2|]. split; [exact EX|]. split; [exact C1|auto].
Qed.

(** ** removing duplicate constraints of a basic map that may be marked empty *)
Definition flagged_res (r : res (bmap * bool)) : res (bmap * bool) := match r with Ok (b, p) => Ok (flagged b, p) | Null => Null | UB => UB | Div => Div end.
Lemma opp_flag hash : forall f t b k p, opp_loop hash f false t (flagged b) k p = flagged_res (opp_loop hash f false t b k p).
Proof.
  induction f as [|f IH]; intros t b k p; cbn [opp_loop]; [reflexivity|]. change (b_ineq (flagged b)) with (b_ineq b). destruct (Nat.leb_spec (length (b_ineq b)) (k + 1)) as [L|L]; [reflexivity|]. destruct (hash_index hash t (b_ineq b) k _) as [h| | |]; try reflexivity. destruct (nth h t None) as [l|]; [|apply IH]. cbv zeta. destruct (0 <? _); [apply IH|]. destruct (_ =? 0); [reflexivity|].
  cbn [flagged_res]. f_equal. f_equal. unfold set_to_empty. change (b_ineq (flagged b)) with (b_ineq b). change (b_eq (flagged b)) with (b_eq b). destruct (Nat.eqb_spec (length (b_eq b) + length (b_ineq b)) 0); [lia|]. rewrite !andb_false_r. reflexivity.
Qed.
Lemma dup_same hash b b' p : proper b -> remove_duplicate_constraints hash b false = Ok (b', p) -> same b b'.
Proof.
  intros P E. destruct (b_empty b) eqn:EE.
  - assert (Q : remove_duplicate_constraints hash (flagged (unmark b)) false = flagged_res (remove_duplicate_constraints hash (unmark b) false)).
    { unfold remove_duplicate_constraints. change (b_ineq (flagged (unmark b))) with (b_ineq (unmark b)). destruct (Nat.leb _ _); [reflexivity|]. cbv zeta. destruct (dup_loop _ _ _ _ _ _) as [[[t l] q]| | |]; try reflexivity. apply opp_flag with (b := set_ineq (unmark b) l). }
    rewrite (flagged_unmark b EE) in E. rewrite Q in E. destruct (remove_duplicate_constraints hash (unmark b) false) as [[b1 p1]| | |] eqn:E1; cbn in E; try discriminate E. injection E as <- <-. apply flagged_same; [exact P|exact EE|]. apply (remove_dup_pres hash _ _ _ _ (proper_unmark b P) E1).
  - apply pres_same_points; [apply P|]. apply (remove_dup_pres hash _ _ _ _ (proper_good b P EE) E).
Qed.

(** ** isl_basic_map_overlying_set *)
Lemma add_known_ok : forall l b, wf b -> (forall i, In i l -> (i < ndiv b)%nat) -> (forall i, In i l -> hd 0 (nth i (b_div b) []) <> 0 -> nth (2 + nvar b + i) (nth i (b_div b) []) 0 = 0) ->
  let b' := fold_left (fun b i => if hd 0 (nth i (b_div b) []) =? 0 then b else add_div_constraints b i) l b in
  wf b' /\ b_div b' = b_div b /\ nvar b' = nvar b /\ b_empty b' = b_empty b /\ b_rat b' = b_rat b /\ sized (b_param b) (b_in b) (b_out b) b' /\
  forall v, length v = (1 + total b)%nat -> hd 0 v = 1 ->
    (system (b_eq b') (b_ineq b') v <-> system (b_eq b) (b_ineq b) v /\ forall i, In i l -> division (nth i (b_div b) []) (nth (1 + nvar b + i) v 0) v).
Proof.
  induction l as [|i l IH]; intros b W HI HZ; cbn [fold_left].
  - split; [exact W|]. split; [reflexivity|]. split; [reflexivity|]. split; [reflexivity|]. split; [reflexivity|]. split; [repeat split|]. intros v _ _. split; [intros H; split; [exact H|intros i []]|tauto].
  - destruct (Z.eqb_spec (hd 0 (nth i (b_div b) [])) 0) as [E|E].
    + destruct (IH b W) as (A1 & A2 & A3 & A4 & A5 & A6 & A7); [intros j Hj; apply HI; right; exact Hj|intros j Hj; apply HZ; right; exact Hj|]. split; [exact A1|]. split; [exact A2|]. split; [exact A3|]. split; [exact A4|]. split; [exact A5|]. split; [exact A6|]. intros v Lv Hv. rewrite (A7 v Lv Hv). split; (intros [S H]; split; [exact S|]); [intros j [<-|Hj]; [left; exact E|apply H; exact Hj]|intros j Hj; apply H; right; exact Hj].
    + destruct (add_div_ok b i W (HI i (or_introl eq_refl)) (HZ i (or_introl eq_refl) E)) as (W1 & Q1). destruct (IH (add_div_constraints b i) W1) as (A1 & A2 & A3 & A4 & A5 & A6 & A7); [intros j Hj; apply (HI j); right; exact Hj|intros j Hj; apply (HZ j); right; exact Hj|]. split; [exact A1|]. split; [exact A2|]. split; [exact A3|]. split; [exact A4|]. split; [exact A5|]. split; [exact A6|].
      intros v Lv Hv. rewrite (A7 v Lv Hv), (Q1 v Lv Hv). change (b_div (add_div_constraints b i)) with (b_div b). change (nvar (add_div_constraints b i)) with (nvar b). split.
      * intros [[S D] H]. split; [exact S|]. intros j [<-|Hj]; [right; exact D|apply H; exact Hj].
      * intros [S H]. split; [split; [exact S|]|intros j Hj; apply H; right; exact Hj]. destruct (H i (or_introl eq_refl)) as [C|C]; [contradiction|exact C].
Qed.
Section Params.
Variables (sid : bmap -> bool) (hash : row -> nat) (no_redundant : bmap -> bool) (tab : bmap -> bool * list kind) (fuel : nat).
Hypothesis TAB : sound_tab tab.
Lemma overlying_ok s like b' : flat (total like) s -> proper like -> ordered like -> overlying sid hash no_redundant tab fuel s like = Ok b' ->
  proper b' /\ sized (b_param like) (b_in like) (b_out like) b' /\
  (b_div b' = [] \/ exists b0, proper b0 /\ simp_fin hash no_redundant tab fuel b0 = Ok b') /\ (b_empty s = false -> emptied b') /\
  forall x, length x = (1 + nvar like)%nat -> hd 0 x = 1 ->
    (points b' x <-> exists e, length e = ndiv like /\ divisions (b_div like) (1 + nvar like) (x ++ e) /\ sat s (x ++ e)).
Proof.
  intros F P O. unfold overlying. destruct (negb (Nat.eqb (b_param s) 0) || negb (Nat.eqb (ndiv s) 0)); [discriminate|]. destruct (negb _); [discriminate|]. pose proof F as (PF & SF & DF). destruct (flat_nvar _ s F) as (NVs & NDs & _).
  destruct (Nat.eqb_spec (ndiv like) 0) as [N0|N0].
  - intros [= <-]. assert (NV : (b_param like + b_in like + b_out like)%nat = nvar s) by (rewrite NVs; unfold total, nvar; lia). destruct (reset_dims_ok sid s _ _ _ PF NV) as (P1 & A1 & A2 & A3 & Q). split; [exact P1|]. split; [split; [exact A1|split; [exact A2|exact A3]]|].
    assert (RD : reset_dims sid s (b_param like) (b_in like) (b_out like) = with_dims s (b_param like) (b_in like) (b_out like)) by (unfold reset_dims; destruct (sid s); [reflexivity|apply nodiv_finalize; exact DF]).
    split; [left; rewrite RD; exact DF|]. split; [intros Em C; rewrite RD in C; cbn in C; congruence|].
    intros x Lx Hx. rewrite Q; [|rewrite <- NV; exact Lx|exact Hx].
    rewrite (flat_points _ s x F); [|split; [unfold total; lia|exact Hx]]. rewrite N0. split.
    + intros S. exists []. rewrite app_nil_r. split; [reflexivity|]. split; [|exact S]. intros k Hk. fold (ndiv like) in Hk. lia.
    + intros (e & Le & _ & S). destruct e; [rewrite app_nil_r in S; exact S|discriminate Le].
  - cbv zeta. set (b1 := mkb _ _ _ _ _ _ _ _ _). pose proof P as (W & A & D & I & R & H). destruct (flat_wf _ s F) as (We & Wi). pose proof PF as (_ & _ & _ & _ & RS & HS).
    assert (W1 : wf b1) by (split; [exact We|split; [exact Wi|exact (proj2 (proj2 W))]]). unfold add_known_div_constraints. change (ndiv b1) with (ndiv like).
    destruct (add_known_ok (seq 0 (ndiv like)) b1 W1) as (W2 & D2 & N2 & E2 & R2 & S2 & Q2); [intros i Hi; apply in_seq in Hi; exact (proj2 Hi)|intros i Hi Hd; apply in_seq in Hi; apply (O i i); [exact (proj2 Hi)|lia|exact Hd]|]. set (b2 := fold_left _ _ b1) in *.
    change (b_div b1) with (b_div like) in *. change (nvar b1) with (nvar like) in *. change (total b1) with (total like) in *. change (b_eq b1) with (b_eq s) in Q2. change (b_ineq b1) with (b_ineq s) in Q2.
    assert (ND2 : ndiv b2 = ndiv like) by (unfold ndiv; rewrite D2; reflexivity). assert (T2 : total b2 = total like) by (unfold total; rewrite ND2, N2; reflexivity).
    assert (Q2' : forall v, length v = (1 + total like)%nat -> hd 0 v = 1 -> (system (b_eq b2) (b_ineq b2) v <-> sat s v /\ divisions (b_div like) (1 + nvar like) v)).
    { intros v Lv Hv. rewrite (Q2 v Lv Hv). unfold sat, divisions. split; (intros [X Y]; split; [exact X|]); intros i Hi; apply Y; [apply in_seq; split; [lia|exact Hi]|apply in_seq in Hi; exact (proj2 Hi)]. }
    assert (P2 : proper b2).
    { split; [exact W2|]. split; [destruct A as (rank & RK); exists rank; unfold ndiv; rewrite D2, N2; exact RK|]. split; [rewrite D2; exact D|]. split; [|split; [rewrite R2; exact RS|]].
      - intros v Lv Hv Sv. rewrite T2 in Lv. rewrite D2, N2. apply (Q2' v Lv Hv), Sv.
      - intros Em v Lv Hv Sv. rewrite T2 in Lv. rewrite E2 in Em. apply (HS Em v); [rewrite (proj2 (proj2 (flat_nvar _ s F))); exact Lv|exact Hv|]. apply (Q2' v Lv Hv), Sv. }
    destruct (remove_duplicate_constraints hash b2 false) as [[b3 p3]| | |] eqn:E3; cbn [bind]; try discriminate. cbn [fst]. intros E4. pose proof (dup_same hash b2 b3 p3 P2 E3) as S3. pose proof (finalize_same b3 (proj1 (proj2 S3))) as S4. pose proof (simp_fin_same hash no_redundant tab fuel TAB _ b' (proj1 (proj2 S4)) E4) as S5. pose proof (same_trans _ _ _ S3 (same_trans _ _ _ S4 S5)) as S6.
    assert (SZ : sized (b_param like) (b_in like) (b_out like) b2) by exact S2. destruct (same_okb _ _ _ _ b' S6 SZ) as (P' & SZ'). split; [exact P'|]. split; [exact SZ'|]. split; [right; exists (finalize b3); split; [apply S4|exact E4]|]. split.
    { intros Em. assert (EM2 : b_empty b2 = false) by (rewrite E2; exact Em). pose proof (remove_dup_pres hash _ _ _ _ (proper_good b2 P2 EM2) E3) as (_ & G3 & _). assert (G4 : good (finalize b3)) by (apply (remove_redundant_divs_pres (ndiv b3) b3 G3 (le_n _))).
      unfold simp_fin in E4. destruct (simplify hash no_redundant tab fuel (finalize b3)) as [b5| | |] eqn:E5; cbn [bind] in E4; try discriminate E4. pose proof (simplify_pres hash no_redundant tab TAB fuel _ b5 G4 E5) as (_ & G5 & _). injection E4 as <-. pose proof (remove_redundant_divs_pres (ndiv b5) b5 G5 (le_n _)) as ((_ & G6 & _) & _). intros C. apply G6. exact C. }
    intros x Lx Hx. destruct S6 as (_ & _ & Q6). rewrite <- (Q6 x); [|rewrite N2; exact Lx|exact Hx].
    rewrite (points_described b2 x P2); [|rewrite N2; exact Lx|exact Hx]. unfold described. rewrite ND2. split; intros (e & Le & Se); exists e; (split; [exact Le|]); (assert (Lv : length (x ++ e) = (1 + total like)%nat) by (rewrite app_length; unfold total; lia)); (assert (Hv : hd 0 (x ++ e) = 1) by (destruct x; [discriminate Lx|exact Hx])); apply (Q2' _ Lv Hv) in Se || apply (Q2' _ Lv Hv); tauto.
Qed.
End Params.
