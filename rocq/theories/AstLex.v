(** Phrases: pieces of text that the C lexer and grammar of AstSpec read as an
    expression, whatever follows them (within limits). *)
From Coq Require Import ZArith List Bool String Lia ZifyBool.
From Verif Require Import StreamModel StreamProofs AstModel AstSpec AstParse.
Import ListNotations.
Local Open Scope string_scope.
Local Open Scope list_scope.
Local Open Scope Z_scope.

Definition Lx (s : list Z) (ts : list tok) : Prop :=
  forall f, (List.length s <= f)%nat -> lex_loop f s = Some ts.

Lemma Lx_lex s ts : Lx s ts -> lex s = Some ts.
Proof. intros H. apply H. lia. Qed.
Lemma Lx_nil : Lx [] [].
Proof. intros [|f] _; reflexivity. Qed.
Lemma Lx_step s o r ts : next s = Some (o, r) -> (List.length r < List.length s)%nat -> Lx r ts ->
  Lx s (match o with Some t => t :: ts | None => ts end).
Proof.
  intros E L H f Hf. destruct s as [|c s]; [discriminate|].
  destruct f as [|f]; [cbn in Hf; lia|]. cbn [lex_loop]. rewrite E. rewrite (H f) by (cbn in *; lia). reflexivity.
Qed.
Lemma Lx_tok s t r ts : next s = Some (Some t, r) -> (List.length r < List.length s)%nat -> Lx r ts -> Lx s (t :: ts).
Proof. intros E L H. exact (Lx_step _ _ _ _ E L H). Qed.
Lemma Lx_space r ts : Lx r ts -> Lx (32 :: r) ts.
Proof. intros H. refine (Lx_step _ None _ _ _ _ H); [reflexivity|cbn; lia]. Qed.

Definition hd_no (Q : Z -> bool) (r : list Z) : Prop := match r with c :: _ => Q c = false | [] => True end.

Lemma span_app Q w r : forallb Q w = true -> hd_no Q r -> span Q (w ++ r) = (w, r).
Proof.
  induction w as [|c w IH]; cbn; intros H Hr.
  - destruct r as [|c r]; auto. cbn in *. rewrite Hr. reflexivity.
  - apply andb_prop in H as [H1 H2]. rewrite H1, IH; auto.
Qed.

(** what may follow *)
Definition Kbase (r : list Z) : Prop := match r with c :: _ => In c [32; 41; 44; 93] | [] => True end.
Definition Kpost (r : list Z) : Prop := match r with c :: _ => In c [32; 41; 44; 93; 40; 91; 46] | [] => True end.
Definition Kany (r : list Z) : Prop := True.

Lemma Lx_ident x r ts : ident x = true -> Kpost r -> Lx r ts -> Lx (x ++ r) (TId x :: ts).
Proof.
  intros Hx Hr H. destruct x as [|c x]; [discriminate|]. cbn [ident] in Hx.
  apply andb_prop in Hx as [Hx Hk]. apply andb_prop in Hx as [Hc Hx].
  apply negb_true_iff in Hk.
  refine (Lx_tok _ _ r _ _ _ H); [|rewrite app_length; cbn; lia].
  cbn [app next]. assert (W : white c = false) by (unfold white, letter in *; lia).
  rewrite W, Hc. change (c :: x ++ r) with ((c :: x) ++ r). rewrite span_app; auto.
  - rewrite Hk. reflexivity.
  - destruct r as [|d r]; [exact I|]. cbn [hd_no Kpost Kbase In] in *. repeat destruct Hr as [<-|Hr]; first [reflexivity|destruct Hr].
Qed.


Lemma digits_forall ds : digits_ok ds -> forallb digit ds = true.
Proof. intros H. apply forallb_forall. intros c Hc. apply H in Hc. exact Hc. Qed.

Lemma dec_digits_hd : forall fuel n acc, 0 < n < 2 ^ Z.of_nat fuel ->
  exists c ds, dec_digits fuel n acc = c :: ds /\ c <> 48.
Proof.
  induction fuel as [|f IH]; intros n acc Hn; [cbn in Hn; lia|]. cbn [dec_digits].
  pose proof (Z.mod_pos_bound n 10 ltac:(lia)) as Mb.
  pose proof (Z.div_mod n 10 ltac:(lia)) as Dm.
  destruct (Z.eqb_spec (n / 10) 0) as [E|E].
  - eexists _, _. split; [reflexivity|]. lia.
  - apply IH. assert (0 <= n / 10) by (apply Z.div_pos; lia). split; [lia|].
    apply Z.div_lt_upper_bound; [lia|]. rewrite Nat2Z.inj_succ, Z.pow_succ_r in Hn by lia.
    assert (0 < 2 ^ Z.of_nat f) by (apply Z.pow_pos_nonneg; lia). lia.
Qed.

Lemma dec_print_hd n : 0 < n -> exists c ds, dec_print n = c :: ds /\ c <> 48.
Proof.
  intros Hn. unfold dec_print. destruct (Z.ltb_spec n 0); [lia|]. apply dec_digits_hd.
  rewrite Nat2Z.inj_succ, Z2Nat.id by apply Z.log2_nonneg. pose proof (Z.log2_spec n Hn). lia.
Qed.

Lemma Lx_num n r ts : 0 <= n -> Kbase r -> Lx r ts -> Lx (dec_print n ++ r) (TNum n :: ts).
Proof.
  intros Hn Hr H. destruct (dec_print_spec n Hn) as (ds & E & D & Ne & V). rewrite E.
  assert (Hz : forall c ds', ds = c :: ds' -> negb (c =? 48) || eqs ds [48] = true).
  { intros c ds' Ec. destruct (Z.eq_dec n 0) as [->|Hn0].
    - change (dec_print 0) with [48] in E. subst ds. apply orb_true_iff. right. apply eqs_refl.
    - destruct (dec_print_hd n ltac:(lia)) as (c' & ds'' & E' & Hc). rewrite E in E'. rewrite Ec in E'.
      injection E' as -> ->. apply orb_true_iff. left. apply negb_true_iff. apply Z.eqb_neq. exact Hc. }
  destruct ds as [|c ds]; [congruence|]. specialize (Hz c ds eq_refl).
  refine (Lx_tok _ _ r _ _ _ H); [|rewrite app_length; cbn; lia].
  pose proof (digits_forall _ D) as F.
  cbn [app next]. assert (Dc : digit c = true) by (apply (D c); left; reflexivity).
  assert (W : white c = false) by (unfold white, digit in *; lia).
  assert (L : letter c = false) by (unfold letter, digit in *; lia).
  rewrite W, L, Dc. change (c :: ds ++ r) with ((c :: ds) ++ r). rewrite span_app.
  - rewrite F, Hz. cbn [andb]. unfold decimal. rewrite <- V. reflexivity.
  - apply forallb_forall. intros d Hd. rewrite forallb_forall in F. specialize (F d Hd).
    unfold idchar. rewrite F. rewrite orb_true_r. reflexivity.
  - destruct r as [|d r]; [exact I|]. cbn [hd_no Kpost Kbase In] in *. repeat destruct Hr as [<-|Hr]; first [reflexivity|destruct Hr].
Qed.

(** punctuators *)
Definition single_p (s : string) : bool := oneof (codes s) ["("; ")"; "["; "]"; ","].
Lemma Lx_p s r ts : In s ["("; ")"; "["; "]"; ","] -> Lx r ts -> Lx (codes s ++ r) (P s :: ts).
Proof.
  intros Hs H. refine (Lx_tok _ _ r _ _ _ H).
  - cbn [In] in Hs. repeat destruct Hs as [<-|Hs]; first [reflexivity|destruct Hs].
  - rewrite app_length. cbn [In] in Hs. repeat destruct Hs as [<-|Hs]; first [cbn; lia|destruct Hs].
Qed.

(** operators surrounded by spaces *)
Definition spaced_ops : list string :=
  ["&&"; "||"; "+"; "-"; "*"; "/"; "%"; "=="; "<="; ">="; "<"; ">"; "?"; ":"].
Lemma Lx_op s r ts : In s spaced_ops -> Lx r ts -> Lx (codes " " ++ codes s ++ codes " " ++ r) (P s :: ts).
Proof.
  intros Hs H. change (codes " ") with [32]. cbn [app]. apply Lx_space.
  refine (Lx_tok _ _ (32 :: r) _ _ _ (Lx_space _ _ H)).
  - cbn [In spaced_ops] in Hs. repeat destruct Hs as [<-|Hs]; first [reflexivity|destruct Hs].
  - rewrite app_length. cbn [In spaced_ops] in Hs. repeat destruct Hs as [<-|Hs]; first [cbn; lia|destruct Hs].
Qed.

(** how an operand may start *)
Definition opstart (c : Z) : bool := letter c || digit c || (c =? 40) || (c =? 38) || (c =? 45).

Ltac neqs c :=
  repeat match goal with
  | |- context [?k =? c] => replace (k =? c) with false by (unfold opstart, letter, digit in *; lia)
  end.


Lemma puncts_eq : puncts =
  [[46; 46; 46]; [60; 60; 61]; [62; 62; 61]; [45; 62]; [43; 43]; [45; 45]; [60; 60]; [62; 62]; [60; 61];
   [62; 61]; [61; 61]; [33; 61]; [38; 38]; [124; 124]; [42; 61]; [47; 61]; [37; 61]; [43; 61]; [45; 61];
   [38; 61]; [94; 61]; [124; 61]; [35; 35]; [47; 47]; [47; 42]; [91]; [93]; [40]; [41]; [123]; [125]; [46];
   [38]; [42]; [43]; [45]; [126]; [33]; [47]; [37]; [60]; [62]; [94]; [124]; [63]; [58]; [59]; [61]; [44]; [35]].
Proof. reflexivity. Qed.

Lemma prefix2 a b d c r : prefix [a; b] (d :: c :: r) = (a =? d) && (b =? c).
Proof. cbn. rewrite andb_true_r. reflexivity. Qed.
Lemma prefix3 a b e d c r : prefix [a; b; e] (d :: c :: r) = (a =? d) && ((b =? c) && prefix [e] r).
Proof. reflexivity. Qed.
Lemma prefix1 a d r : prefix [a] (d :: r) = (a =? d).
Proof. cbn. apply andb_true_r. Qed.
Lemma find_skip (Q : list Z -> bool) p l : Q p = false -> find Q (p :: l) = find Q l.
Proof. intros H. cbn. rewrite H. reflexivity. Qed.
Lemma find_hit (Q : list Z -> bool) p l : Q p = true -> find Q (p :: l) = Some p.
Proof. intros H. cbn. rewrite H. reflexivity. Qed.

Ltac find_p :=
  rewrite puncts_eq;
  repeat (rewrite find_skip by (rewrite ?prefix1, ?prefix2, ?prefix3; lia));
  rewrite find_hit by (rewrite ?prefix1, ?prefix2; lia); reflexivity.

Lemma find_minus c r : opstart c = true -> c <> 45 -> find (fun p => prefix p (45 :: c :: r)) puncts = Some [45].
Proof. unfold opstart, letter, digit. intros H Hn. find_p. Qed.
Lemma find_amp c r : opstart c = true -> c <> 38 -> find (fun p => prefix p (38 :: c :: r)) puncts = Some [38].
Proof. unfold opstart, letter, digit. intros H Hn. find_p. Qed.
Lemma find_dot c r : letter c = true -> find (fun p => prefix p (46 :: c :: r)) puncts = Some [46].
Proof. unfold letter. intros H. find_p. Qed.

Lemma Lx_minus c r ts : opstart c = true -> c <> 45 -> Lx (c :: r) ts -> Lx (45 :: c :: r) (P "-" :: ts).
Proof.
  intros Hc Hn H. refine (Lx_tok _ _ (c :: r) _ _ _ H); [|cbn; lia].
  unfold next. rewrite find_minus by auto. reflexivity.
Qed.
Lemma Lx_amp c r ts : opstart c = true -> c <> 38 -> Lx (c :: r) ts -> Lx (38 :: c :: r) (P "&" :: ts).
Proof.
  intros Hc Hn H. refine (Lx_tok _ _ (c :: r) _ _ _ H); [|cbn; lia].
  unfold next. rewrite find_amp by auto. reflexivity.
Qed.
Lemma Lx_dot c r ts : letter c = true -> Lx (c :: r) ts -> Lx (46 :: c :: r) (P "." :: ts).
Proof.
  intros Hc H. refine (Lx_tok _ _ (c :: r) _ _ _ H); [|cbn; lia].
  unfold next. rewrite find_dot by auto.
  replace (digit c) with false by (unfold digit, letter in *; lia). reflexivity.
Qed.
