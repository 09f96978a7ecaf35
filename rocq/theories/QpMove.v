(** isl_qpolynomial_insert_dims, and isl_qpolynomial_move_dims for integer divisions that do not refer to each other. *)
From Coq Require Import ZArith List Bool QArith Arith Lia ZifyBool Setoid Permutation.
From Verif Require Import SeqModel SeqSpec SeqProofs MatModel ValModel LocalModel LocalSpec LocalProofs BMapModel BMapLists SpaceModel PolyModel PolySpec PolyBase PolyOps PolyOps2 PolyOps3 PolyThms QpModel QpSpec QpProofs QpReduce QpReduce2 QpFlat QpFlat2.
From Verif Require RdivCoal SimpDrop.
Import ListNotations.
Open Scope Z_scope.

(** ** insertion *)
Definition linsert (v : list Z) (k : nat) (u : list Z) : list Z := firstn k v ++ u ++ skipn k v.
Lemma nth_linsert v k u j : (k <= length v)%nat -> nth j (linsert v k u) 0 = if Nat.ltb j k then nth j v 0 else if Nat.ltb j (k + length u) then nth (j - k) u 0 else nth (j - length u) v 0.
Proof.
  intros H. unfold linsert. assert (L : length (firstn k v) = k) by (rewrite firstn_length; lia). destruct (Nat.ltb_spec j k); [rewrite app_nth1 by lia; apply nth_first; lia|]. rewrite app_nth2, L by lia. destruct (Nat.ltb_spec j (k + length u)); [apply app_nth1; lia|]. rewrite app_nth2 by lia. rewrite SeqProofs.nth_skipn. f_equal. lia.
Qed.
Lemma linsert_length v k u : (k <= length v)%nat -> length (linsert v k u) = (length v + length u)%nat.
Proof. intros H. unfold linsert. rewrite !app_length, firstn_length, skipn_length. lia. Qed.
Lemma dot_linsert r w k u n : length u = n -> length r = length w -> (k <= length w)%nat -> dot (linsert r k (repeat 0 n)) (linsert w k u) = dot r w.
Proof.
  intros Hu L H. unfold linsert. rewrite dot_app2 by (rewrite !firstn_length; lia). rewrite dot_app2 by (rewrite repeat_length; lia). rewrite dot_repeat0. rewrite <- (firstn_skipn k r) at 3. rewrite <- (firstn_skipn k w) at 3. rewrite dot_app2 by (rewrite !firstn_length; lia). ring.
Qed.
Lemma tighten p : forall B b, ordered B p -> (forall u, occurs u p -> (u < b)%nat) -> ordered b p.
Proof. intros B b O H. destruct p as [c e|v l]; [exact O|]. cbn [ordered] in *. destruct O as (_ & O). split; [apply H; left; reflexivity|exact O]. Qed.
Lemma insert_ok q g n s : wf_qp q -> (g <= q_d q)%nat -> dim_all s = (q_d q + n)%nat ->
  exists M p, qp_insert q g n = Ok (M, p) /\ wf_qp (mkqp s M p) /\
    forall u v r, length u = n -> qvalue q v r -> qvalue (mkqp s M p) (firstn (1 + g) v ++ u ++ skipn (1 + g) v) r.
Proof.
  intros (W & K & O) Hg Hs. set (d := q_d q) in *. set (m := q_n q) in *. assert (D0 : divs d m (q_div q)) by (apply divs_wf; split; assumption). pose proof D0 as (_ & D).
  unfold qp_insert. cbv zeta. fold d. fold m. set (tot := (d + m + n)%nat). set (M := insert_zero_cols (q_div q) (2 + g) n).
  assert (Hex : exists p, (if Nat.ltb g tot then expand (q_poly q) (map (fun i => (i + n)%nat) (seq 0 (tot - g))) g else Ok (q_poly q)) = Ok p /\ ordered tot p /\
    forall x, (pval x p == pval (fun k => x (if Nat.ltb k g then k else k + n)%nat) (q_poly q))%Q).
  { destruct (Nat.ltb_spec g tot) as [Hl|Hl].
    - set (e := map (fun i => (i + n)%nat) (seq 0 (tot - g))). assert (Le : length e = (tot - g)%nat) by (unfold e; rewrite map_length, seq_length; reflexivity).
      assert (Ne : forall i, (i < tot - g)%nat -> nth i e 0%nat = (i + n)%nat) by (intros i Hi; apply (RdivCoal.nth_mapseq (fun i => (i + n)%nat)); exact Hi).
      destruct (poly_expand_ok e g (tot + n) (q_poly q) (d + m)) as (p & Ep & Op & Vp & _); [intros i j Hij Hj; rewrite !Ne by lia; lia|intros i Hi; rewrite Ne by lia; lia|lia|exact O|lia|].
      assert (V : forall x, (pval x p == pval (fun k => x (if Nat.ltb k g then k else k + n)%nat) (q_poly q))%Q). { intros x. rewrite Vp. apply (pval_ext _ _ _ _ O). intros k Hk. unfold expanded. fold d in Hk. fold m in Hk. destruct (Nat.ltb_spec k g); [reflexivity|]. rewrite Ne by lia. replace (k - g + n + g)%nat with (k + n)%nat by lia. reflexivity. }
      exists p. split; [exact Ep|]. split; [|exact V]. apply (tighten p (tot + n)%nat); [exact Op|]. intros u Hu. destruct (Nat.lt_ge_cases u tot) as [|Hge]; [assumption|]. exfalso. destruct (occurs_effect _ _ _ Op Hu) as (x & y & Hxy & Nxy). apply Nxy. rewrite !V. apply (pval_ext _ _ _ _ O). intros k Hk. fold d in Hk. fold m in Hk. rewrite Hxy; [reflexivity|]. destruct (Nat.ltb k g); lia.
    - exists (q_poly q). assert (n = 0 /\ m = 0 /\ g = d)%nat as (-> & Em & ->) by lia. split; [reflexivity|]. split; [replace tot with (d + m)%nat by lia; exact O|]. intros x. apply pval_ext_all. intros k. rewrite Nat.add_0_r. destruct (Nat.ltb k d); reflexivity. }
  destruct Hex as (p & Ep & Op & Vp). rewrite Ep. cbn [LocalModel.bind]. exists M, p. split; [reflexivity|].
  assert (LM : length M = m) by (unfold M, insert_zero_cols; rewrite map_length; reflexivity).
  assert (NM : forall j, (j < m)%nat -> nth j M [] = linsert (nth j (q_div q) []) (2 + g) (repeat 0 n)) by (intros j Hj; unfold M, insert_zero_cols; apply nth_map_nil; exact Hj).
  assert (D1 : divs (d + n) m M). { split; [exact LM|]. intros j Hj. rewrite NM by exact Hj. destruct (D j Hj) as (A & B & C). split; [rewrite linsert_length, repeat_length by lia; lia|]. split; [rewrite nth_linsert by lia; cbn [Nat.ltb Nat.leb]; exact B|].
    intros k Hk. rewrite nth_linsert by lia. rewrite repeat_length. destruct (Nat.ltb_spec k (2 + g)); [lia|]. destruct (Nat.ltb_spec k (2 + g + n)); [apply nth_zeros|apply C; lia]. }
  assert (Dd : dim_all s = (d + n)%nat) by exact Hs. split.
  - assert (D1' := D1). rewrite <- LM in D1'. destruct (proj1 (divs_wf (d + n) M) D1') as (W1 & K1). split; [unfold q_d; cbn [q_sp q_div]; rewrite Dd; exact W1|]. split; [exact K1|]. unfold q_d, q_n. cbn [q_sp q_div q_poly]. rewrite Dd, LM. replace (d + n + m)%nat with tot by (unfold tot; lia). exact Op.
  - intros u v r Lu (w & Sw & Fw & Er). apply vals_sat in Sw; [|exact D0]. change (vals d m (q_div q) w) in Sw. destruct Sw as (Lw & W0 & V). exists (linsert w (1 + g) u). unfold q_d. cbn [q_sp q_div q_poly]. rewrite Dd.
    split; [|split].
    + assert (D1' := D1). rewrite <- LM in D1'. apply vals_sat; [exact D1'|]. rewrite LM. split; [rewrite linsert_length by lia; lia|]. split; [rewrite nth_linsert by lia; cbn [Nat.ltb Nat.leb]; exact W0|]. intros j Hj. rewrite NM by exact Hj. destruct (D j Hj) as (A & B & C).
      rewrite (nth_linsert w) by lia. destruct (Nat.ltb_spec (1 + (d + n) + j) (1 + g)); [lia|]. rewrite Lu. destruct (Nat.ltb_spec (1 + (d + n) + j) (1 + g + n)); [lia|]. replace (1 + (d + n) + j - n)%nat with (1 + d + j)%nat by lia. rewrite V by exact Hj.
      assert (E : skipn 1 (linsert (nth j (q_div q) []) (2 + g) (repeat 0 n)) = linsert (skipn 1 (nth j (q_div q) [])) (1 + g) (repeat 0 n)) by (unfold linsert; destruct (nth j (q_div q) []) as [|a l]; [cbn in A; lia|]; reflexivity).
      rewrite E, dot_linsert by (rewrite ?skipn_length; lia). rewrite nth_linsert by lia. reflexivity.
    + rewrite <- Fw. unfold linsert. fold d. rewrite firstn_firstn, Nat.min_l by lia. rewrite firstn_app, firstn_firstn, firstn_length. rewrite Nat.min_r by lia. rewrite (Nat.min_l (1 + g)) by lia. f_equal. rewrite firstn_app, Lu. rewrite firstn_all2 by lia. f_equal. rewrite <- (firstn_skipn (1 + d) w) at 1. rewrite skipn_app, firstn_app, !skipn_length, firstn_length.
      rewrite Nat.min_l by lia. rewrite firstn_all2 by (rewrite skipn_length, firstn_length; lia). replace (1 + (d + n) - (1 + g) - n - (1 + d - (1 + g)))%nat with 0%nat by lia. cbn [firstn]. apply app_nil_r.
    + rewrite Vp, Er. apply (pval_ext _ _ _ _ O). intros k Hk. unfold wval. f_equiv. rewrite nth_linsert by lia. rewrite Lu. fold d in Hk. fold m in Hk. destruct (Nat.ltb_spec k g); [destruct (Nat.ltb_spec (1 + k) (1 + g)); [reflexivity|lia]|]. destruct (Nat.ltb_spec (1 + (k + n)) (1 + g)); [lia|]. destruct (Nat.ltb_spec (1 + (k + n)) (1 + g + n)); [lia|]. f_equal. lia.
Qed.

(** ** moving *)
Lemma split4 (l : list Z) a b c : (a + b + c <= length l)%nat -> exists A B C D, l = A ++ B ++ C ++ D /\ length A = a /\ length B = b /\ length C = c.
Proof.
  intros H. exists (firstn a l), (firstn b (skipn a l)), (firstn c (skipn b (skipn a l))), (skipn c (skipn b (skipn a l))). rewrite !firstn_skipn. split; [reflexivity|]. rewrite !firstn_length, !skipn_length. lia.
Qed.
Lemma skipn_app_len {A} (a b : list A) k : length a = k -> skipn k (a ++ b) = b.
Proof. intros <-. rewrite skipn_app, skipn_all, Nat.sub_diag. reflexivity. Qed.
Lemma firstn_app_len {A} (a b : list A) k : length a = k -> firstn k (a ++ b) = a.
Proof. intros <-. rewrite firstn_app, firstn_all, Nat.sub_diag. cbn [firstn]. apply app_nil_r. Qed.
Definition mvl (dst src n : nat) (r : list Z) : list Z := let c := firstn n (skipn src r) in let rest := firstn src r ++ skipn (src + n) r in firstn dst rest ++ c ++ skipn dst rest.
Lemma mvl_down A B C D : mvl (length A) (length A + length B) (length C) (A ++ B ++ C ++ D) = A ++ C ++ B ++ D.
Proof.
  unfold mvl. cbv zeta. assert (E1 : skipn (length A + length B) (A ++ B ++ C ++ D) = C ++ D) by (rewrite app_assoc; apply skipn_app_len; rewrite app_length; reflexivity). rewrite E1, (firstn_app_len C D) by reflexivity.
  assert (E2 : firstn (length A + length B) (A ++ B ++ C ++ D) = A ++ B) by (rewrite app_assoc; apply firstn_app_len; rewrite app_length; reflexivity). rewrite E2.
  assert (E3 : skipn (length A + length B + length C) (A ++ B ++ C ++ D) = D) by (rewrite !app_assoc; apply skipn_app_len; rewrite !app_length; lia). rewrite E3. rewrite <- app_assoc, firstn_app_len, skipn_app_len by reflexivity. reflexivity.
Qed.
Lemma mvl_up A B C D : mvl (length A + length B) (length A) (length C) (A ++ C ++ B ++ D) = A ++ B ++ C ++ D.
Proof.
  unfold mvl. cbv zeta. rewrite (skipn_app_len A (C ++ B ++ D) (length A)) by reflexivity. rewrite (firstn_app_len C (B ++ D) (length C)), (firstn_app_len A (C ++ B ++ D) (length A)) by reflexivity.
  assert (E3 : skipn (length A + length C) (A ++ C ++ B ++ D) = B ++ D) by (rewrite app_assoc; apply skipn_app_len; rewrite app_length; reflexivity). rewrite E3.
  assert (E4 : firstn (length A + length B) (A ++ B ++ D) = A ++ B) by (rewrite app_assoc; apply firstn_app_len; rewrite app_length; reflexivity). assert (E5 : skipn (length A + length B) (A ++ B ++ D) = D) by (rewrite app_assoc; apply skipn_app_len; rewrite app_length; reflexivity). rewrite E4, E5, <- app_assoc. reflexivity.
Qed.
Lemma moved_total d dst src n v : (src + n <= d)%nat -> (dst + n <= d)%nat -> length v = (1 + d)%nat -> nth 0 v 0 = 1 -> moved d dst src n v (mvl (1 + dst) (1 + src) n v).
Proof.
  intros H1 H2 L V0. destruct v as [|x v]; [cbn in L; lia|]. cbn in L, V0. subst x. destruct (Nat.le_gt_cases dst src) as [H|H].
  - destruct (split4 v dst (src - dst) n ltac:(lia)) as (A & B & C & D & -> & LA & LB & LC). replace (mvl (1 + dst) (1 + src) n (1 :: A ++ B ++ C ++ D)) with (1 :: A ++ C ++ B ++ D).
    + rewrite !app_length in L. apply moved_down; lia.
    + pose proof (mvl_down (1 :: A) B C D) as E. cbn [length app] in E. replace (1 + dst)%nat with (S (length A)) by lia. replace (1 + src)%nat with (S (length A) + length B)%nat by lia. rewrite <- LC. symmetry. exact E.
  - destruct (split4 v src n (dst - src) ltac:(lia)) as (A & C & B & D & -> & LA & LC & LB). replace (mvl (1 + dst) (1 + src) n (1 :: A ++ C ++ B ++ D)) with (1 :: A ++ B ++ C ++ D).
    + rewrite !app_length in L. apply moved_up; lia.
    + pose proof (mvl_up (1 :: A) B C D) as E. cbn [length app] in E. replace (1 + src)%nat with (S (length A)) by lia. replace (1 + dst)%nat with (S (length A) + length B)%nat by lia. rewrite <- LC. symmetry. exact E.
Qed.
(** the move of the columns of a row *)
Lemma row_split d m r a b c : frow d m r -> (a + b + c <= d)%nat -> exists x y A B C D E, r = x :: y :: A ++ B ++ C ++ D ++ E /\ length A = a /\ length B = b /\ length C = c /\ length D = (d - a - b - c)%nat /\ length E = m /\ 0 < x /\ (forall k, nth k E 0 = 0).
Proof.
  intros (L & P & Z0) H. destruct r as [|x [|y r]]; cbn in L; try lia. destruct (split4 r a b c ltac:(lia)) as (A & B & C & D & -> & LA & LB & LC). rewrite !app_length in L. exists x, y, A, B, C, (firstn (d - a - b - c) D), (skipn (d - a - b - c) D). rewrite firstn_skipn. split; [reflexivity|]. rewrite firstn_length, skipn_length. repeat split; try lia; [exact P|].
  intros k. rewrite SeqProofs.nth_skipn. specialize (Z0 (2 + (a + b + c + (d - a - b - c + k)))%nat ltac:(lia)). cbn [nth plus] in Z0. rewrite app_nth2 in Z0 by lia. rewrite app_nth2 in Z0 by lia. rewrite app_nth2 in Z0 by lia. etransitivity; [|exact Z0]. f_equal. lia.
Qed.
Lemma fval_parts d x y A B C D E v : (length A + length B + length C + length D = d)%nat -> fval d v (x :: y :: A ++ B ++ C ++ D ++ E) = dot (y :: A ++ B ++ C ++ D) v / x.
Proof. intros L. unfold fval. cbn [nth]. f_equal. f_equal. change (skipn 1 (x :: y :: A ++ B ++ C ++ D ++ E)) with (y :: A ++ B ++ C ++ D ++ E). replace (y :: A ++ B ++ C ++ D ++ E) with ((y :: A ++ B ++ C ++ D) ++ E) by (cbn [app]; rewrite <- !app_assoc; reflexivity). apply firstn_app_len. cbn [length]. rewrite !app_length. lia. Qed.
Lemma frow_parts d m x y A B C D E : (length A + length B + length C + length D = d)%nat -> length E = m -> 0 < x -> (forall k, nth k E 0 = 0) -> frow d m (x :: y :: A ++ B ++ C ++ D ++ E).
Proof.
  intros L LE P Z0. split; [cbn [length]; rewrite !app_length; lia|]. split; [exact P|]. intros k Hk. destruct k as [|[|k]]; try lia. cbn [nth]. rewrite !app_nth2 by lia. apply Z0.
Qed.
Lemma move_row d m dst src n r v v' : (src + n <= d)%nat -> (dst + n <= d)%nat -> frow d m r -> moved d dst src n v v' ->
  frow d m (mvl (2 + dst) (2 + src) n r) /\ fval d v' (mvl (2 + dst) (2 + src) n r) = fval d v r.
Proof.
  intros H1 H2 Fr Mv. inversion Mv as [A B C D LA LB LC LD Ev Ev'|A B C D LA LB Bp LC LD Ev Ev']; subst v v'.
  - destruct (row_split d m r dst (length B) n Fr ltac:(lia)) as (x & y & A1 & B1 & C1 & D1 & E1 & -> & LA1 & LB1 & LC1 & LD1 & LE1 & P & Z0).
    pose proof (mvl_down (x :: y :: A1) B1 C1 (D1 ++ E1)) as E. cbn [length app] in E. replace (2 + dst)%nat with (S (S (length A1))) by lia. replace (2 + src)%nat with (S (S (length A1)) + length B1)%nat by lia. rewrite <- LC1. rewrite E. split; [apply frow_parts; try assumption; lia|].
    rewrite !fval_parts by lia. f_equal. change (dot (y :: A1 ++ C1 ++ B1 ++ D1) (1 :: A ++ C ++ B ++ D)) with (y * 1 + dot (A1 ++ C1 ++ B1 ++ D1) (A ++ C ++ B ++ D)). change (dot (y :: A1 ++ B1 ++ C1 ++ D1) (1 :: A ++ B ++ C ++ D)) with (y * 1 + dot (A1 ++ B1 ++ C1 ++ D1) (A ++ B ++ C ++ D)). rewrite !dot_app2 by lia. ring.
  - destruct (row_split d m r src n (length B) Fr ltac:(lia)) as (x & y & A1 & C1 & B1 & D1 & E1 & -> & LA1 & LC1 & LB1 & LD1 & LE1 & P & Z0).
    pose proof (mvl_up (x :: y :: A1) B1 C1 (D1 ++ E1)) as E. cbn [length app] in E. replace (2 + src)%nat with (S (S (length A1))) by lia. replace (2 + dst)%nat with (S (S (length A1)) + length B1)%nat by lia. rewrite <- LC1. rewrite E. split; [apply frow_parts; try assumption; lia|].
    rewrite !fval_parts by lia. f_equal. change (dot (y :: A1 ++ C1 ++ B1 ++ D1) (1 :: A ++ C ++ B ++ D)) with (y * 1 + dot (A1 ++ C1 ++ B1 ++ D1) (A ++ C ++ B ++ D)). change (dot (y :: A1 ++ B1 ++ C1 ++ D1) (1 :: A ++ B ++ C ++ D)) with (y * 1 + dot (A1 ++ B1 ++ C1 ++ D1) (A ++ B ++ C ++ D)). rewrite !dot_app2 by lia. ring.
Qed.
(** the renaming of the variables *)
Lemma nth_reordering len dst src n : (src + n <= len)%nat -> (dst + n <= len)%nat -> length (reordering_move len dst src n) = len /\ forall k, (k < len)%nat ->
  nth k (reordering_move len dst src n) 0%nat =
    if Nat.leb dst src then (if Nat.ltb k dst then k else if Nat.ltb k src then k + n else if Nat.ltb k (src + n) then dst + (k - src) else k)%nat
    else (if Nat.ltb k src then k else if Nat.ltb k (src + n) then dst + (k - src) else if Nat.ltb k (dst + n) then k - n else k)%nat.
Proof.
  intros H1 H2. unfold reordering_move. destruct (Nat.leb_spec dst src) as [H|H]; (split; [rewrite !app_length, !seq_length; lia|]); intros k Hk.
  - destruct (Nat.ltb_spec k dst); [rewrite app_nth1 by (rewrite seq_length; lia); rewrite seq_nth by lia; lia|]. rewrite app_nth2 by (rewrite seq_length; lia). rewrite seq_length.
    destruct (Nat.ltb_spec k src); [rewrite app_nth1 by (rewrite seq_length; lia); rewrite seq_nth by lia; lia|]. rewrite app_nth2 by (rewrite seq_length; lia). rewrite seq_length.
    destruct (Nat.ltb_spec k (src + n)); [rewrite app_nth1 by (rewrite seq_length; lia); rewrite seq_nth by lia; lia|]. rewrite app_nth2 by (rewrite seq_length; lia). rewrite seq_length. rewrite seq_nth by lia. lia.
  - destruct (Nat.ltb_spec k src); [rewrite app_nth1 by (rewrite seq_length; lia); rewrite seq_nth by lia; lia|]. rewrite app_nth2 by (rewrite seq_length; lia). rewrite seq_length.
    destruct (Nat.ltb_spec k (src + n)); [rewrite app_nth1 by (rewrite seq_length; lia); rewrite seq_nth by lia; lia|]. rewrite app_nth2 by (rewrite seq_length; lia). rewrite seq_length.
    destruct (Nat.ltb_spec k (dst + n)); [rewrite app_nth1 by (rewrite seq_length; lia); rewrite seq_nth by lia; lia|]. rewrite app_nth2 by (rewrite seq_length; lia). rewrite seq_length. rewrite seq_nth by lia. lia.
Qed.
Lemma moved_nth d dst src n v v' len : moved d dst src n v v' -> (src + n <= d)%nat -> (dst + n <= d)%nat -> (d <= len)%nat -> forall k, (k < d)%nat -> (nth k (reordering_move len dst src n) 0 < d)%nat /\ nth (1 + nth k (reordering_move len dst src n) 0%nat) v' 0 = nth (1 + k) v 0.
Proof.
  intros Mv H1 H2 Hl k Hk. destruct (nth_reordering len dst src n ltac:(lia) ltac:(lia)) as (_ & R). rewrite R by lia. clear R.
  inversion Mv as [A B C D LA LB LC LD Ev Ev'|A B C D LA LB Bp LC LD Ev Ev']; subst v v'.
  - destruct (Nat.leb_spec dst src); [|lia]. cbn [nth plus]. destruct (Nat.ltb_spec k dst); [split; [lia|]; rewrite !app_nth1 by lia; reflexivity|]. destruct (Nat.ltb_spec k src).
    + split; [lia|]. rewrite app_nth2 by lia. rewrite app_nth2 by lia. rewrite app_nth1 by lia. rewrite (app_nth2 A) by lia. rewrite app_nth1 by lia. f_equal. lia.
    + destruct (Nat.ltb_spec k (src + n)).
      * split; [lia|]. rewrite app_nth2 by lia. rewrite app_nth1 by lia. rewrite (app_nth2 A) by lia. rewrite app_nth2 by lia. rewrite app_nth1 by lia. f_equal. lia.
      * split; [lia|]. rewrite !app_nth2 by lia. f_equal. lia.
  - destruct (Nat.leb_spec dst src); [lia|]. cbn [nth plus]. destruct (Nat.ltb_spec k src); [split; [lia|]; rewrite !app_nth1 by lia; reflexivity|]. destruct (Nat.ltb_spec k (src + n)).
    + split; [lia|]. rewrite app_nth2 by lia. rewrite app_nth2 by lia. rewrite app_nth1 by lia. rewrite (app_nth2 A) by lia. rewrite app_nth1 by lia. f_equal. lia.
    + destruct (Nat.ltb_spec k (dst + n)).
      * split; [lia|]. rewrite app_nth2 by lia. rewrite app_nth1 by lia. rewrite (app_nth2 A) by lia. rewrite app_nth2 by lia. rewrite app_nth1 by lia. f_equal. lia.
      * split; [lia|]. rewrite !app_nth2 by lia. f_equal. lia.
Qed.
Lemma move_flat qsort q s dst src n : sorts qsort -> wf_qp q -> flat (q_d q) (q_div q) -> (src + n <= q_d q)%nat -> (dst + n <= q_d q)%nat -> dim_all s = q_d q ->
  exists q', qp_move qsort s q dst src n = Ok q' /\ wf_qp q' /\ forall v v' r, moved (q_d q) dst src n v v' -> qvalue q v r -> qvalue q' v' r.
Proof.
  intros SO WF Fl H1 H2 Hs. pose proof WF as (W & K & O). set (d := q_d q) in *. set (m := q_n q) in *. assert (D0 : divs d m (q_div q)) by (apply divs_wf; split; assumption). assert (F0 : fdivs d m (q_div q)) by (apply fdivs_ok; split; assumption).
  set (M1 := move_cols (q_div q) (2 + dst) (2 + src) n). assert (LM1 : length M1 = m) by (unfold M1, move_cols; rewrite map_length; reflexivity).
  assert (NM1 : forall j, (j < m)%nat -> nth j M1 [] = mvl (2 + dst) (2 + src) n (nth j (q_div q) [])) by (intros j Hj; unfold M1, move_cols; apply (nth_map_nil (mvl (2 + dst) (2 + src) n)); exact Hj).
  assert (F1 : fdivs d m M1). { split; [exact LM1|]. intros j Hj. rewrite NM1 by exact Hj. pose proof (moved_total d dst src n (1 :: repeat 0 d) H1 H2 ltac:(cbn; rewrite repeat_length; reflexivity) eq_refl) as Mv. apply (move_row d m dst src n _ _ _ H1 H2 (proj2 F0 j Hj) Mv). }
  destruct (proj1 (fdivs_ok d m M1) F1) as (D1 & Fl1). set (q1 := mkqp (q_sp q) M1 (q_poly q)). assert (W1 : wf_qp q1). { assert (D1' := D1). rewrite <- LM1 in D1'. destruct (proj1 (divs_wf d M1) D1') as (A & B). split; [exact A|]. split; [exact B|]. unfold q_n. cbn [q_div q1 q_poly]. rewrite LM1. exact O. }
  destruct (sort_divs_parts qsort SO q1 W1 Fl1) as (M2 & r & p & n' & Es & FM & Hn & Op & Vp & Id & At). change (q_d q1) with d in *. change (q_poly q1) with (q_poly q) in *. unfold q_n in Hn, At. cbn [q_div q1] in Hn, At. rewrite LM1 in Hn, At.
  unfold qp_move. fold M1. fold q1. rewrite Es. cbn [LocalModel.bind q_sp q1 q_poly q_div]. unfold q_d at 1, q_n. cbn [q_sp q_div]. fold (q_d q). fold d. pose proof (proj1 FM) as LM2. rewrite LM2.
  destruct (nth_reordering (d + n') dst src n ltac:(lia) ltac:(lia)) as (LR & NR). set (R := reordering_move (d + n') dst src n) in *.
  assert (Mv0 := moved_total d dst src n (1 :: repeat 0 d) H1 H2 ltac:(cbn; rewrite repeat_length; reflexivity) eq_refl).
  assert (RB : forall k, (k < d + n')%nat -> (nth k R 0 < d + n')%nat /\ ((d <= k)%nat -> nth k R 0%nat = k)). { intros k Hk. rewrite NR by exact Hk. split; [destruct (Nat.leb_spec dst src); repeat match goal with |- context[Nat.ltb ?a ?b] => destruct (Nat.ltb_spec a b) end; lia|]. intros Hd. destruct (Nat.leb_spec dst src); repeat match goal with |- context[Nat.ltb ?a ?b] => destruct (Nat.ltb_spec a b) end; lia. }
  destruct (reorder_ok R (d + n') p (d + n') Op ltac:(lia)) as (p2 & Ep2 & Op2 & Vp2 & _). { apply Forall_forall. intros x Hx. apply (In_nth _ _ 0%nat) in Hx as (k & Hk & <-). apply RB. lia. }
  rewrite Ep2. cbn [LocalModel.bind]. eexists. split; [reflexivity|]. destruct (proj1 (fdivs_ok d n' M2) FM) as (D2 & Fl2). assert (D2' := D2). rewrite <- LM2 in D2'. destruct (proj1 (divs_wf d M2) D2') as (W2 & K2).
  split; [split; [unfold q_d; cbn [q_sp q_div]; rewrite Hs; exact W2|split; [exact K2|unfold q_d, q_n; cbn [q_sp q_div q_poly]; rewrite Hs, LM2; exact Op2]]|].
  intros v v' x Mv (w & Sw & Fw & Ex). apply vals_sat in Sw; [|exact D0]. change (vals d m (q_div q) w) in Sw. pose proof Sw as (Lw & W0 & _). rewrite (fvals d m _ w F0 Lw W0) in Sw. fold d in Fw. rewrite Fw in Sw.
  assert (Lv' : length v' = (1 + d)%nat /\ nth 0 v' 0 = 1). { inversion Mv; subst; (split; [cbn [length]; rewrite !app_length; lia|reflexivity]). } destruct Lv' as (Lv' & V0').
  destruct (extend_sat d M2 v' W2 K2 Lv' V0') as (S' & F'). set (w' := extend_loop M2 v') in *. exists w'. unfold q_d. cbn [q_sp q_div q_poly]. rewrite Hs. split; [exact S'|]. split; [exact F'|]. rewrite Vp2, Vp, Ex.
  apply vals_sat in S'; [|exact D2']. rewrite LM2 in S'. pose proof S' as (Lw' & W0' & _). rewrite (fvals d n' _ w' FM Lw' W0') in S'. rewrite F' in S'.
  apply (pval_ext _ _ _ _ O). intros k Hk. fold d in Hk. fold m in Hk. unfold renamed, wval. f_equiv. destruct (Nat.lt_ge_cases k d) as [Hl|Hl].
  - rewrite Id by exact Hl. destruct (moved_nth d dst src n v v' (d + n') Mv H1 H2 ltac:(lia) k Hl) as (Rb & Re). fold R in Rb, Re. rewrite <- (nth_first w (1 + k) (1 + d)), <- (nth_first w' (1 + nth k R 0%nat) (1 + d)) by lia. rewrite Fw, F'. symmetry. exact Re.
  - destruct (At (k - d)%nat ltac:(lia)) as (t & Ht & Et & Ft). replace (d + (k - d))%nat with k in Et by lia. rewrite Et. destruct (RB (d + t)%nat ltac:(lia)) as (_ & Rt). rewrite Rt by lia. change (1 + (d + t))%nat with (1 + d + t)%nat. rewrite S' by exact Ht. replace (1 + k)%nat with (1 + d + (k - d))%nat by lia. rewrite Sw by lia.
    rewrite (Ft v'), NM1 by lia. symmetry. apply (move_row d m dst src n _ v v' H1 H2 (proj2 F0 (k - d)%nat ltac:(lia)) Mv).
Qed.

(** ** the statements of PropsQpFlat.v *)
Definition good_result (q : qp) (e : res qp) : Prop :=
  exists q', e = Ok q' /\ wf_qp q' /\ q_sp q' = q_sp q /\ (q_n q' <= q_n q)%nat /\ forall v r, qvalue q v r -> qvalue q' v r.
Lemma keeps_good q e q' : e = Ok q' -> keeps q q' -> good_result q e.
Proof. intros E (A & B & C & _ & D). exists q'. auto. Qed.
Lemma non_divs_value q fuel i : wf_qp q -> good_result q (substitute_non_divs fuel i q).
Proof. intros W. destruct (non_divs_ok fuel i q W) as (q' & A & B). exact (keeps_good _ _ _ A B). Qed.
Lemma sort_value qsort q : sorts qsort -> wf_qp q -> flat (q_d q) (q_div q) -> good_result q (sort_divs qsort q).
Proof. intros SO W F. destruct (sort_divs_flat qsort SO q W F) as (q' & A & B). exact (keeps_good _ _ _ A B). Qed.
Lemma reduce_value qsort fuel q : sorts qsort -> wf_qp q -> flat (q_d q) (q_div q) -> (q_n q < fuel)%nat -> good_result q (reduce_divs qsort fuel q).
Proof. intros SO W F H. destruct (reduce_divs_flat qsort SO fuel q W F H) as (q' & A & B). exact (keeps_good _ _ _ A B). Qed.
Lemma remove_redundant_value q : wf_qp q -> flat (q_d q) (q_div q) -> good_result q (remove_redundant_divs q).
Proof. intros W F. destruct (remove_redundant_flat q W F) as (q' & A & B). exact (keeps_good _ _ _ A B). Qed.
Lemma reduce_loop_value q : wf_qp q -> let d := q_d q in let n := q_n q in
  let '(M, mat) := reduce_loop d (seq 0 n) (q_div q) (map (fun i => zupd (repeat 0 (1 + d + n)) (1 + d + i) 1) (seq 0 n)) in
  exists s p, affine_polys mat = Ok s /\ poly_subs (q_poly q) d n s = Ok p /\ wf_qp (mkqp (q_sp q) M p) /\ length M = n /\
    forall v r, qvalue q v r -> qvalue (mkqp (q_sp q) M p) v r.
Proof.
  intros W d n. pose proof (reduce_part q W) as R. cbv zeta in R. fold d in R. fold n in R. pose proof (st_reduce_loop d n (seq 0 n) (q_div q) (map (fun i => zupd (repeat 0 (1 + d + n)) (1 + d + i) 1) (seq 0 n)) ltac:(apply Forall_forall; intros i Hi; apply in_seq in Hi; lia)) as T.
  destruct (reduce_loop _ _ _ _) as (M, mat). destruct R as (s & p & A & B & (C & _ & _ & _ & D)). exists s, p. split; [exact A|]. split; [exact B|]. split; [exact C|]. split; [|exact D].
  destruct T as ((L & _) & _); [apply divs_wf; split; apply W| |exact L]. cbn [snd]. split; [rewrite map_length, seq_length; reflexivity|]. intros k Hk. rewrite (RdivCoal.nth_mapseq (fun i => zupd (repeat 0 (1 + d + n)) (1 + d + i) 1)) by exact Hk. rewrite zupd_length, repeat_length. reflexivity.
Qed.
