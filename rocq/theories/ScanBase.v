(** Enumeration of integer points: systems, points and lists of points. *)
From Coq Require Import ZArith List Bool Arith Lia.
From Verif Require Import SeqModel SeqSpec SeqProofs MatModel BMapModel BMapSpec BMapSem ScanModel ScanSpec.
Import ListNotations.
Open Scope Z_scope.

(** ** linear combinations of points *)
Definition lin (a : Z) (p : list Z) (b : Z) (q : list Z) : list Z := map2 (fun x y => a * x + b * y) p q.
Lemma lin_len a p b q : length p = length q -> length (lin a p b q) = length p.
Proof. unfold lin. revert q. induction p as [|x p IH]; intros [|y q] L; cbn [map2 length] in *; try discriminate; [reflexivity|]. f_equal. apply IH. injection L; auto. Qed.
Lemma lin_hd a p b q n : length p = S n -> length q = S n -> hd 0 (lin a p b q) = a * hd 0 p + b * hd 0 q.
Proof. destruct p, q; cbn; intros; try discriminate; reflexivity. Qed.
Lemma dot_lin r a p b q : length p = length q -> dot r (lin a p b q) = a * dot r p + b * dot r q.
Proof.
  revert p q. induction r as [|x r IH]; intros p q L; [cbn [dot]; lia|]. destruct p as [|y p], q as [|z q]; try discriminate; [cbn; lia|]. unfold lin. cbn [map2 dot]. specialize (IH p q ltac:(injection L; auto)). unfold lin in IH. rewrite IH. lia.
Qed.
Lemma sat_lin d n a p b q : 0 <= a -> 0 <= b -> length p = S n -> length q = S n -> sat d p -> sat d q -> sat d (lin a p b q).
Proof.
  intros A B LP LQ (E1 & Z1 & I1) (_ & Z2 & I2). split; [exact E1|]. rewrite Forall_forall in *. split; rewrite Forall_forall; intros r H.
  - unfold zero_on. rewrite dot_lin by congruence. pose proof (Z1 r H). pose proof (Z2 r H). unfold zero_on in *. nia.
  - unfold nonneg_on. rewrite dot_lin by congruence. pose proof (I1 r H). pose proof (I2 r H). unfold nonneg_on in *. nia.
Qed.
Lemma scale_dot r k p : dot r (map (fun x => k * x) p) = k * dot r p.
Proof. revert p. induction r as [|x r IH]; intros [|y p]; cbn [dot map]; try lia. rewrite IH. lia. Qed.
Lemma sat_scale d k p : 0 < k -> (sat d (map (fun x => k * x) p) <-> sat d p).
Proof.
  intros K. unfold sat, system. rewrite !Forall_forall. unfold zero_on, nonneg_on. setoid_rewrite scale_dot. split; intros (E & Z & I); (split; [exact E|]); split; intros r H.
  - specialize (Z r H). nia.
  - specialize (I r H). nia.
  - specialize (Z r H). nia.
  - specialize (I r H). nia.
Qed.
Lemma sat_and_eq r d p : sat (and_eq r d) p <-> sat d p /\ dot r p = 0.
Proof.
  unfold sat, and_eq, system. cbn [s_empty s_eq s_ineq]. split.
  - intros (E & Z & I). inversion Z; subst. unfold zero_on in *. tauto.
  - intros ((E & Z & I) & H). repeat split; auto.
Qed.
Lemma dot_fixed c r p n : length r = S n -> hd 0 r = 0 -> length p = S n -> dot (- c :: tl r) p = dot r p - c * hd 0 p.
Proof. destruct r as [|x r], p as [|y p]; cbn [length hd tl dot]; intros; try discriminate. subst x. lia. Qed.
Lemma dot_neg_row r p : hd 0 r = 0 -> dot (hd 0 r :: map Z.opp (tl r)) p = - dot r p.
Proof. destruct r as [|x r]; cbn [hd tl]; intros H; [destruct p; cbn; lia|]. subst x. destruct p as [|y p]; [reflexivity|]. cbn [dot]. rewrite dot_opp. lia. Qed.
(** between two points on both sides of a hyperplane there is one on it *)
Lemma between d n r c p q : length r = S n -> rpoint n p -> rpoint n q -> sat d p -> sat d q -> dot r p <= c * hd 0 p -> c * hd 0 q <= dot r q ->
  exists m, rpoint n m /\ sat d m /\ dot r m = c * hd 0 m.
Proof.
  intros LR (LP & HP) (LQ & HQ) SP SQ A B.
  destruct (Z.eq_dec (dot r q) (c * hd 0 q)) as [E|E]; [exists q; unfold rpoint; auto|].
  set (a := dot r q - c * hd 0 q). set (b := c * hd 0 p - dot r p).
  exists (lin a p b q). unfold rpoint. rewrite lin_len by congruence. rewrite (lin_hd a p b q n LP LQ), dot_lin by congruence. split; [split; [exact LP|nia]|]. split; [apply (sat_lin d n); auto; lia|]. subst a b. ring.
Qed.

(** ** lists of points *)
Lemma lists_ext n Q Q' l : (forall v, ipoint n v -> (Q v <-> Q' v)) -> lists n Q l -> lists n Q' l.
Proof. intros H (N & I). split; [exact N|]. intros v. rewrite I. split; intros (A & B); split; auto; apply (H v A); exact B. Qed.
Lemma nodup_app {A} (l1 l2 : list A) : NoDup l1 -> NoDup l2 -> (forall x, List.In x l1 -> ~ List.In x l2) -> NoDup (l1 ++ l2).
Proof.
  induction l1 as [|a l1 IH]; intros N1 N2 D; [exact N2|]. inversion N1; subst. cbn. constructor.
  - rewrite in_app_iff. intros [H|H]; [contradiction|]. exact (D a (or_introl eq_refl) H).
  - apply IH; auto. intros x H. apply D. right. exact H.
Qed.
Lemma lists_app n Q1 Q2 Q l1 l2 : lists n Q1 l1 -> lists n Q2 l2 -> (forall v, ipoint n v -> ~ (Q1 v /\ Q2 v)) -> (forall v, ipoint n v -> (Q v <-> Q1 v \/ Q2 v)) -> lists n Q (l1 ++ l2).
Proof.
  intros (N1 & I1) (N2 & I2) D U. split.
  - apply nodup_app; auto. intros x A B. apply I1 in A. apply I2 in B. exact (D x (proj1 A) (conj (proj2 A) (proj2 B))).
  - intros v. rewrite in_app_iff, I1, I2. split.
    + intros [(A & B)|(A & B)]; split; auto; apply (U v A); auto.
    + intros (A & B). apply (U v A) in B. tauto.
Qed.
Lemma lists_nil n Q : (forall v, ipoint n v -> ~ Q v) -> lists n Q [].
Proof. intros H. split; [constructor|]. intros v. split; [intros []|]. intros (A & B). exact (H v A B). Qed.
Lemma visit_app {St} (add : St -> list Z -> bool * St) l1 : forall l2 s, visit add (l1 ++ l2) s = (let (ok, s') := visit add l1 s in if ok then visit add l2 s' else (false, s')).
Proof. induction l1 as [|v l1 IH]; intros l2 s; [reflexivity|]. cbn [app visit]. destruct (add s v) as (ok & s'). destruct ok; [apply IH|reflexivity]. Qed.

(** ** coordinates with respect to a basis *)
Lemma map_scale_rows B k x : map (fun r => dot (tl r) (map (fun y => k * y) x)) B = map (fun y => k * y) (map (fun r => dot (tl r) x) B).
Proof. rewrite map_map. apply map_ext. intros r. apply scale_dot. Qed.
Lemma basis_row n B i : basis n B -> (i < n)%nat -> length (nth i B []) = (1 + n)%nat /\ hd 0 (nth i B []) = 0.
Proof. intros (L & F & _) H. rewrite Forall_forall in F. apply F, nth_In. lia. Qed.
Lemma dot_tl r k x : hd 0 r = 0 -> dot r (k :: x) = dot (tl r) x.
Proof. destruct r as [|y r]; cbn [hd tl dot]; intros; [destruct x; reflexivity|]. subst. lia. Qed.
(** a point with given coordinates is a multiple of an integer point that only depends on them *)
Lemma coords n B c : basis n B -> length c = n -> exists x, length x = n /\ (forall i, (i < n)%nat -> dot (nth i B []) (1 :: x) = nth i c 0) /\
  forall p, rpoint n p -> (forall i, (i < n)%nat -> dot (nth i B []) p = nth i c 0 * hd 0 p) -> p = map (fun y => hd 0 p * y) (1 :: x).
Proof.
  intros BB LC. pose proof BB as (LB & F & SU & INJ). destruct (SU c LC) as (x & LX & E). exists x. split; [exact LX|].
  assert (N : forall i, (i < n)%nat -> dot (tl (nth i B [])) x = nth i c 0).
  { intros i H. rewrite <- E. rewrite (nth_indep _ 0 (dot (tl []) x)) by (rewrite map_length; lia). rewrite (map_nth (fun r => dot (tl r) x)). reflexivity. }
  split.
  - intros i H. rewrite dot_tl by apply (basis_row n B i BB H). apply N, H.
  - intros p (LP & HP) P. destruct p as [|k u]; [discriminate LP|]. cbn [hd map] in *. f_equal; [lia|]. apply INJ; [injection LP; auto|rewrite map_length; exact LX|]. rewrite map_scale_rows, E. apply nth_ext with (d := dot (tl []) u) (d' := k * 0); [rewrite !map_length; lia|]. intros i H. rewrite map_length in H. rewrite (map_nth (fun r => dot (tl r) u)), (map_nth (fun y => k * y)). rewrite <- (dot_tl (nth i B []) k u) by (apply (basis_row n B i BB); lia). rewrite P by lia. lia.
Qed.
