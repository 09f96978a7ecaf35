(** Printed AST expressions are read by C as the tree they denote. *)
From Coq Require Import ZArith List Bool String Lia ZifyBool.
From Verif Require Import MatModel StreamModel StreamProofs AstModel AstSpec AstParse AstLex.
Import ListNotations.
Local Open Scope string_scope.
Local Open Scope list_scope.
Local Open Scope Z_scope.

(** ** Phrases *)

Definition Ph (n : nat) (K : list Z -> Prop) (s : list Z) (t : ctree) : Prop :=
  exists w, G n w t /\ forall r ts, K r -> Lx r ts -> Lx (s ++ r) (w ++ ts).

Lemma Kbase_post r : Kbase r -> Kpost r.
Proof. destruct r; cbn [Kbase Kpost In]; tauto. Qed.

Lemma Ph_le n m (K K' : list Z -> Prop) s t : Ph n K s t -> (n <= m <= 15)%nat -> (forall r, K' r -> K r) -> Ph m K' s t.
Proof. intros (w & Hw & HL) Hm HK. exists w. split; [eapply G_mono; eauto|]. intros r ts Hr. apply HL. auto. Qed.

Lemma Ph_id x : ident x = true -> Ph 0 Kpost x (CId x).
Proof. intros H. exists [TId x]. split; [constructor|]. intros r ts Hr HL. apply Lx_ident; auto. Qed.
Lemma Ph_num n : 0 <= n -> Ph 0 Kbase (dec_print n) (CInt n).
Proof. intros H. exists [TNum n]. split; [constructor|]. intros r ts Hr HL. apply Lx_num; auto. Qed.

Lemma Ph_paren s t : Ph 15 Kbase s t -> Ph 0 Kany (codes "(" ++ s ++ codes ")") t.
Proof.
  intros (w & Hw & HL). exists (P "(" :: w ++ [P ")"]). split; [apply G_paren; exact Hw|].
  intros r ts _ Hr. rewrite <- !app_assoc. cbn [List.app]. rewrite <- app_assoc.
  apply Lx_p; [cbn; tauto|]. apply HL; [cbn; tauto|]. cbn [List.app]. apply (Lx_p ")"); [cbn; tauto|exact Hr].
Qed.

Lemma Ph_index s t s' i : Ph 2 Kpost s t -> Ph 15 Kbase s' i ->
  Ph 2 Kany (s ++ codes "[" ++ s' ++ codes "]") (CIndex t i).
Proof.
  intros (w & Hw & HL) (v & Hv & HL'). exists (w ++ P "[" :: v ++ [P "]"]). split; [apply G_index; auto|].
  intros r ts _ Hr. rewrite <- !app_assoc. apply HL; [cbn; tauto|].
  cbn [List.app]. rewrite <- app_assoc. apply (Lx_p "["); [cbn; tauto|]. apply HL'; [cbn; tauto|].
  apply (Lx_p "]"); [cbn; tauto|exact Hr].
Qed.

Lemma Ph_call0 s f : Ph 2 Kpost s f -> Ph 2 Kany (s ++ codes "()") (CCall f []).
Proof.
  intros (w & Hw & HL). exists (w ++ [P "("; P ")"]). split; [apply G_call0; auto|].
  intros r ts _ Hr. rewrite <- !app_assoc. apply HL; [cbn; tauto|].
  apply (Lx_p "("); [cbn; tauto|]. apply (Lx_p ")"); [cbn; tauto|exact Hr].
Qed.

(** argument lists *)
Definition PhA (s : list Z) (ts : list ctree) : Prop :=
  exists w, Gargs w ts /\ forall r l, Kbase r -> Lx r l -> Lx (s ++ r) (w ++ l).
Lemma PhA_one s t : Ph 15 Kbase s t -> PhA s [t].
Proof. intros (w & Hw & HL). exists w. split; [constructor; exact Hw|exact HL]. Qed.
Lemma PhA_more s t s' ts : Ph 15 Kbase s t -> PhA s' ts -> PhA (s ++ codes ", " ++ s') (t :: ts).
Proof.
  intros (w & Hw & HL) (v & Hv & HL'). exists (w ++ P "," :: v). split; [apply Ga_more; auto|].
  intros r l Kr Hr. rewrite <- !app_assoc. apply HL; [cbn; tauto|].
  apply (Lx_p ","); [cbn; tauto|]. change (codes " ") with [32]. apply Lx_space. apply HL'; auto.
Qed.
Lemma Ph_call s f a ts : Ph 2 Kpost s f -> PhA a ts -> Ph 2 Kany (s ++ codes "(" ++ a ++ codes ")") (CCall f ts).
Proof.
  intros (w & Hw & HL) (v & Hv & HL'). exists (w ++ P "(" :: v ++ [P ")"]). split; [apply G_call; auto|].
  intros r l _ Hr. rewrite <- !app_assoc. apply HL; [cbn; tauto|].
  cbn [List.app]. rewrite <- app_assoc. apply (Lx_p "("); [cbn; tauto|]. apply HL'; [cbn; tauto|].
  apply (Lx_p ")"); [cbn; tauto|exact Hr].
Qed.
Lemma Ph_call2 f a ta b tb : ident f = true -> Ph 15 Kbase a ta -> Ph 15 Kbase b tb ->
  Ph 2 Kany (f ++ codes "(" ++ a ++ codes ", " ++ b ++ codes ")") (CCall (CId f) [ta; tb]).
Proof.
  intros Hf Ha Hb. pose proof (PhA_more _ _ _ _ Ha (PhA_one _ _ Hb)) as HA.
  assert (Hi : Ph 2 Kpost f (CId f)) by (eapply Ph_le; [exact (Ph_id f Hf)|lia|auto]).
  pose proof (Ph_call f (CId f) _ _ Hi HA) as H.
  rewrite <- !app_assoc in H. exact H.
Qed.

Lemma Ph_member s t x : Ph 2 Kpost s t -> ident x = true -> Ph 2 Kpost (s ++ codes "." ++ x) (CMember (codes ".") t x).
Proof.
  intros (w & Hw & HL) Hx. exists (w ++ [P "."; TId x]). split; [apply G_member; auto|].
  intros r ts Kr Hr. rewrite <- !app_assoc. apply HL; [cbn; tauto|]. cbn [List.app].
  pose proof (Lx_ident x r ts Hx Kr Hr) as H. destruct x as [|c x]; [discriminate|].
  cbn [ident] in Hx. apply andb_prop in Hx as [Hx _]. apply andb_prop in Hx as [Hx _].
  apply (Lx_dot c (x ++ r)); [exact Hx|exact H].
Qed.

Lemma Ph_un K c s t : opstart c = true -> c <> 45 -> Ph 3 K (c :: s) t ->
  Ph 3 K (codes "-" ++ c :: s) (CUn (codes "-") t).
Proof.
  intros Hc Hn (w & Hw & HL). exists (P "-" :: w). split; [apply G_un; [reflexivity|exact Hw]|].
  intros r ts Kr Hr. apply Lx_minus; auto. apply (HL r ts Kr Hr).
Qed.
Lemma Ph_addr K c s t : opstart c = true -> c <> 38 -> Ph 3 K (c :: s) t ->
  Ph 3 K (codes "&" ++ c :: s) (CUn (codes "&") t).
Proof.
  intros Hc Hn (w & Hw & HL). exists (P "&" :: w). split; [apply G_un; [reflexivity|exact Hw]|].
  intros r ts Kr Hr. apply Lx_amp; auto. apply (HL r ts Kr Hr).
Qed.

Lemma Ph_bin n K o s1 t1 s2 t2 : In o spaced_ops -> binlevel (codes o) = S n ->
  Ph (S n) Kbase s1 t1 -> Ph n K s2 t2 ->
  Ph (S n) K (s1 ++ codes " " ++ codes o ++ codes " " ++ s2) (CBin (codes o) t1 t2).
Proof.
  intros Ho Hb (w1 & Hw1 & HL1) (w2 & Hw2 & HL2). exists (w1 ++ P o :: w2). split; [apply G_bin; auto|].
  intros r ts Kr Hr. rewrite <- !app_assoc. apply HL1; [cbn; tauto|]. cbn [List.app].
  apply (Lx_op o); [exact Ho|]. apply HL2; auto.
Qed.

Lemma Ph_cond K s1 t1 s2 t2 s3 t3 : Ph 14 Kbase s1 t1 -> Ph 15 Kbase s2 t2 -> Ph 15 K s3 t3 ->
  Ph 15 K (s1 ++ codes " ? " ++ s2 ++ codes " : " ++ s3) (CCond t1 t2 t3).
Proof.
  intros (w1 & Hw1 & HL1) (w2 & Hw2 & HL2) (w3 & Hw3 & HL3).
  exists (w1 ++ P "?" :: w2 ++ P ":" :: w3). split; [apply G_cond; auto|].
  intros r ts Kr Hr. rewrite <- !app_assoc. apply HL1; [cbn; tauto|]. cbn [List.app]. rewrite <- app_assoc.
  apply (Lx_op "?"); [cbn; tauto|]. apply HL2; [cbn; tauto|]. cbn [List.app].
  apply (Lx_op ":"); [cbn; tauto|]. apply HL3; auto.
Qed.

(** ** Induction over expressions *)
Section expr_ind2.
  Variable Q : expr -> Prop.
  Hypothesis Herr : Q EErr.
  Hypothesis Hop : forall o args, Forall Q args -> Q (EOp o args).
  Hypothesis Hid : forall x, Q (EId x).
  Hypothesis Hint : forall v, Q (EInt v).
  Fixpoint expr_ind2 (e : expr) : Q e :=
    match e with
    | EErr => Herr
    | EOp o args => Hop o args ((fix go l : Forall Q l :=
        match l with [] => Forall_nil _ | a :: l => Forall_cons a (expr_ind2 a) (go l) end) args)
    | EId x => Hid x
    | EInt v => Hint v
    end.
End expr_ind2.

(** ** Operands *)

Definition level (e : expr) : nat :=
  match e with
  | EErr => 0
  | EId _ => 0
  | EInt v => if v <? 0 then 3 else 0
  | EOp o _ => op_prec o
  end.
Definition Kof (e : expr) : list Z -> Prop := if postfix_like e then Kpost else Kbase.
Lemma Kof_base e r : Kbase r -> Kof e r.
Proof. unfold Kof. destruct (postfix_like e); auto. apply Kbase_post. Qed.

Lemma op_prec_15 o : (op_prec o <= 15)%nat. Proof. destruct o; cbn; lia. Qed.
Lemma level_15 e : (level e <= 15)%nat.
Proof. destruct e; cbn -[Z.ltb]; try lia; [apply op_prec_15|]. destruct (v <? 0); lia. Qed.

(** how the text of an expression starts *)
Definition hd_ok (e : expr) (s : list Z) : Prop :=
  exists c s', s = c :: s' /\ opstart c = true /\
    ((level e <= 3)%nat -> (c = 45 -> starts_minus e = true) /\ (c = 38 -> is_op [op_address_of] e = true)).

Definition printed (nm : names) (e : expr) : Prop :=
  exists s t, print_ast_expr_c nm e = Ok s /\ tree_of nm e = Some t /\ Ph (level e) (Kof e) s t /\ hd_ok e s.

Lemma printed_15 nm e : printed nm e -> exists s t, print_ast_expr_c nm e = Ok s /\ tree_of nm e = Some t /\
  Ph 15 Kbase s t /\ hd_ok e s.
Proof.
  intros (s & t & E & T & H & D). exists s, t. split; [exact E|]. split; [exact T|]. split; [|exact D].
  eapply Ph_le; [exact H|pose proof (level_15 e); lia|apply Kof_base].
Qed.

(** an operand of [o], parenthesized if needed *)
Lemma sub_printed nm o args pos left a :
  nth_error args pos = Some a -> printed nm a ->
  exists s t, print_sub_expr_c o args (map (print_ast_expr_c nm) args) pos left = Ok s /\
    tree_of nm a = Some t /\
    (if sub_expr_need_parens o a left then Ph 0 Kany s t /\ hd 0 s = 40 /\ s <> []
     else Ph (level a) (Kof a) s t /\ hd_ok a s).
Proof.
  intros Ha (s & t & E & T & H & D). unfold print_sub_expr_c.
  rewrite nth_error_map, Ha. cbn [option_map]. rewrite E. cbn [bind].
  eexists. exists t. split; [reflexivity|]. split; [exact T|].
  destruct (sub_expr_need_parens o a left).
  - split; [|split; [reflexivity|discriminate]]. apply Ph_paren.
    eapply Ph_le; [exact H|pose proof (level_15 a); lia|apply Kof_base].
  - auto.
Qed.

Lemma need_parens_false o a left : sub_expr_need_parens o a left = false ->
  (exists o' args, a = EOp o' args /\ (op_prec o' < op_prec o \/ op_prec o' = op_prec o /\ left = op_left o)%nat)
  \/ (forall o' args, a <> EOp o' args).
Proof.
  destruct a as [|o' args|x|v]; cbn [sub_expr_need_parens]; try (intros _; right; intros; discriminate).
  intros H. left. exists o', args. split; [reflexivity|].
  destruct (Nat.ltb_spec (op_prec o) (op_prec o')); [discriminate|].
  destruct (Nat.eqb_spec (op_prec o') (op_prec o)) as [E|E]; [|left; lia].
  right. split; [exact E|]. destruct (Bool.eqb left (op_left o)) eqn:B; [|discriminate].
  apply Bool.eqb_prop in B. exact B.
Qed.

Lemma level_nonop a : (forall o' args, a <> EOp o' args) -> (level a <= 3)%nat.
Proof. intros H. destruct a as [|o' args|x|v]; cbn -[Z.ltb]; try lia; [destruct (H o' args eq_refl)|]. destruct (v <? 0); lia. Qed.

(** left and right operands of a binary operator *)
Lemma sub_left nm o args a : nth_error args 0 = Some a -> printed nm a -> op_left o = true -> (5 <= op_prec o)%nat ->
  exists s t, print_sub_expr_c o args (map (print_ast_expr_c nm) args) 0 true = Ok s /\
    tree_of nm a = Some t /\ Ph (op_prec o) Kbase s t /\ exists c s', s = c :: s' /\ opstart c = true.
Proof.
  intros Ha Pa Lo Po. destruct (sub_printed nm o args 0 true a Ha Pa) as (s & t & E & T & H).
  exists s, t. split; [exact E|]. split; [exact T|]. pose proof (op_prec_15 o).
  destruct (sub_expr_need_parens o a true) eqn:N.
  - destruct H as (H & Hh & Hs). split.
    + eapply Ph_le; [exact H|lia|]. intros r _. exact I.
    + destruct s as [|c s]; [congruence|]. cbn in Hh. subst c. exists 40, s. auto.
  - destruct H as (H & (c & s' & -> & Hc & _)). split; [|eauto].
    eapply Ph_le; [exact H| |apply Kof_base]. apply need_parens_false in N as [(o' & args' & -> & D)|N].
    + cbn [level]. lia.
    + apply level_nonop in N. lia.
Qed.
Lemma sub_right nm o args a : nth_error args 1 = Some a -> printed nm a -> op_left o = true -> (5 <= op_prec o)%nat ->
  exists s t, print_sub_expr_c o args (map (print_ast_expr_c nm) args) 1 false = Ok s /\
    tree_of nm a = Some t /\ Ph (op_prec o - 1) Kbase s t.
Proof.
  intros Ha Pa Lo Po. destruct (sub_printed nm o args 1 false a Ha Pa) as (s & t & E & T & H).
  exists s, t. split; [exact E|]. split; [exact T|]. pose proof (op_prec_15 o).
  destruct (sub_expr_need_parens o a false) eqn:N.
  - destruct H as (H & _). eapply Ph_le; [exact H|lia|]. intros r _. exact I.
  - destruct H as (H & _).
    eapply Ph_le; [exact H| |apply Kof_base]. apply need_parens_false in N as [(o' & args' & -> & [D|[_ D]])|N].
    + cbn [level]. lia.
    + congruence.
    + apply level_nonop in N. lia.
Qed.

Lemma names_default nm o : names_ok nm -> o <> op_max -> o <> op_min -> o <> op_fdiv_q -> nm o = None.
Proof.
  intros H A B C. destruct (nm o) eqn:E; auto. apply H in E. tauto.
Qed.
Lemma names_fun nm o : names_ok nm -> In o [op_max; op_min; op_fdiv_q] ->
  get_op_str_c nm o = c_fun nm o /\ ident (c_fun nm o) = true.
Proof.
  intros H Ho. unfold get_op_str_c, c_fun. destruct (nm o) eqn:E.
  - split; auto. apply (H o l E).
  - cbn [In] in Ho. repeat destruct Ho as [<-|Ho]; try (split; reflexivity). destruct Ho.
Qed.

Definition binary_op (o : op) : bool :=
  match o with
  | op_and | op_and_then | op_or | op_or_else | op_add | op_sub | op_mul | op_div | op_pdiv_q | op_pdiv_r
  | op_zdiv_r | op_eq | op_le | op_lt | op_ge | op_gt => true
  | _ => false
  end.

Lemma print_binary nm o a b : names_ok nm -> binary_op o = true -> printed nm a -> printed nm b ->
  printed nm (EOp o [a; b]).
Proof.
  intros Hn Ho Pa Pb.
  assert (Ln : op_left o = true) by (destruct o; try discriminate; reflexivity).
  assert (Lp : (5 <= op_prec o)%nat) by (destruct o; try discriminate; cbn; lia).
  destruct (sub_left nm o [a; b] a eq_refl Pa Ln Lp) as (s1 & t1 & E1 & T1 & H1 & (c & s' & Es & Hc)).
  destruct (sub_right nm o [a; b] b eq_refl Pb Ln Lp) as (s2 & t2 & E2 & T2 & H2).
  assert (Hcb : exists st, c_binop o = Some st /\ op_str_c o = codes st /\ In st spaced_ops /\
                binlevel (codes st) = op_prec o).
  { destruct o; try discriminate; (eexists; split; [reflexivity|]; split; [reflexivity|];
      split; [cbn; tauto|reflexivity]). }
  destruct Hcb as (st & Cb & Os & Si & Bl).
  exists (s1 ++ codes " " ++ codes st ++ codes " " ++ s2), (CBin (codes st) t1 t2).
  assert (Np : nm o = None) by (apply names_default; auto; intros ->; discriminate).
  split; [|split; [|split]].
  - destruct o; try discriminate; cbn [print_ast_expr_c op_eqb op_num Nat.eqb List.length orb negb];
      rewrite E1, E2; cbn [bind]; unfold get_op_str_c; rewrite Np, Os; reflexivity.
  - destruct o; try discriminate; cbn [tree_of map tree_of_op]; rewrite T1, T2; cbn in Cb |- *;
      injection Cb as <-; reflexivity.
  - replace (Kof (EOp o [a; b])) with Kbase by (destruct o; try discriminate; reflexivity).
    cbn [level]. destruct (op_prec o) as [|n] eqn:En; [lia|].
    apply Ph_bin; auto. replace (S n - 1)%nat with n in H2 by lia. exact H2.
  - subst s1. exists c. eexists. split; [reflexivity|]. split; [exact Hc|]. cbn [level]. lia.
Qed.

Lemma all_some_Forall {A B} (f : A -> option B) (l : list A) :
  (forall a, In a l -> exists b, f a = Some b) -> exists r, all_some (map f l) = Some r /\ List.length r = List.length l.
Proof.
  induction l as [|a l IH]; intros H; [exists []; auto|]. destruct (H a (or_introl eq_refl)) as (b & E).
  destruct IH as (r & Er & Lr); [intros; apply H; right; auto|]. exists (b :: r). cbn. rewrite E, Er. cbn. auto.
Qed.

(** texts and trees of a list of printed expressions *)
Lemma printed_list nm l : Forall (printed nm) l ->
  exists ss ts, map (print_ast_expr_c nm) l = map Ok ss /\ all_some (map (tree_of nm) l) = Some ts /\
    Forall2 (fun s t => Ph 15 Kbase s t) ss ts.
Proof.
  induction 1 as [|a l Ha _ IH]; [exists [], []; repeat split; constructor|].
  destruct IH as (ss & ts & E & T & H). destruct (printed_15 _ _ Ha) as (s & t & E1 & T1 & H1 & _).
  exists (s :: ss), (t :: ts). cbn. rewrite E1, E, T1, T. repeat split; auto.
Qed.

Lemma repeat_str_S n s : repeat_str (S n) s = repeat_str n s ++ s.
Proof. induction n as [|n IH]; cbn [repeat_str]; [rewrite app_nil_r; reflexivity|]. rewrite <- app_assoc, <- IH. reflexivity. Qed.

(** the remaining arguments of a reduction *)
Lemma reduce_rest f : ident f = true -> forall ss ts, Forall2 (fun s t => Ph 15 Kbase s t) ss ts ->
  forall acc ta, Ph 2 Kany acc ta ->
  exists s, print_rest (codes ", ") (codes ")") (map Ok ss) = Ok s /\
    Ph 2 Kany (repeat_str (List.length ss) (f ++ codes "(") ++ acc ++ s)
        (fold_left (fun a b => CCall (CId f) [a; b]) ts ta).
Proof.
  intros Hf ss ts H. induction H as [|s t ss ts Hs _ IH]; intros acc ta Ha.
  - exists []. cbn. rewrite app_nil_r. split; auto.
  - assert (Ha' : Ph 15 Kbase acc ta) by (eapply Ph_le; [exact Ha|lia|intros; exact I]).
    pose proof (Ph_call2 f acc ta s t Hf Ha' Hs) as H2.
    destruct (IH _ _ H2) as (s' & E & P2). cbn [map print_rest bind]. rewrite E. cbn [bind].
    eexists. split; [reflexivity|]. change (List.length (s :: ss)) with (S (List.length ss)).
    rewrite repeat_str_S. rewrite <- !app_assoc in *. exact P2.
Qed.

Lemma print_reduce nm o args : names_ok nm -> o = op_max \/ o = op_min -> (2 <= List.length args)%nat ->
  Forall (printed nm) args -> printed nm (EOp o args).
Proof.
  intros Hn Ho Hl H. destruct args as [|a [|b args]]; try (cbn in Hl; lia).
  destruct (names_fun nm o Hn) as (Gn & Hf); [destruct Ho as [-> | ->]; cbn; tauto|].
  inversion H as [|? ? Ha H']; subst. inversion H' as [|? ? Hb Hr]; subst.
  destruct (printed_15 _ _ Ha) as (s1 & t1 & E1 & T1 & P1 & _).
  destruct (printed_15 _ _ Hb) as (s2 & t2 & E2 & T2 & P2 & _).
  destruct (printed_list _ _ Hr) as (ss & ts & E & T & F).
  pose proof (Ph_call2 _ s1 t1 s2 t2 Hf P1 P2) as P0.
  destruct (reduce_rest _ Hf ss ts F _ _ P0) as (s & Es & Ps).
  assert (Lss : List.length args = List.length ss).
  { rewrite <- (map_length (@Ok (list Z)) ss), <- E, map_length. reflexivity. }
  set (f := c_fun nm o) in *.
  exists (repeat_str (S (List.length ss)) (f ++ codes "(") ++ s1 ++ codes ", " ++ s2 ++ codes ")" ++ s).
  exists (fold_left (fun a b => CCall (CId f) [a; b]) ts (CCall (CId f) [t1; t2])).
  split; [|split; [|split]].
  - assert (Pm : print_min_max_c f (map (print_ast_expr_c nm) (a :: b :: args)) =
      Ok (repeat_str (S (List.length ss)) (f ++ codes "(") ++ s1 ++ codes ", " ++ s2 ++ codes ")" ++ s)).
    { cbn [map]. rewrite E1, E2, E. unfold print_min_max_c. cbn [bind print_rest]. rewrite Es. cbn [bind].
      change (List.length (Ok s2 :: map Ok ss)) with (S (List.length (map (@Ok (list Z)) ss))).
      rewrite map_length. reflexivity. }
    rewrite <- Pm. destruct Ho as [-> | ->]; cbn [print_ast_expr_c op_eqb op_num Nat.eqb List.length orb]; rewrite Gn; reflexivity.
  - destruct Ho as [-> | ->]; cbn [tree_of map all_some]; rewrite T1, T2, T; reflexivity.
  - replace (Kof (EOp o (a :: b :: args))) with Kpost by (destruct Ho as [-> | ->]; reflexivity).
    replace (level (EOp o (a :: b :: args))) with 2%nat by (destruct Ho as [-> | ->]; reflexivity).
    eapply Ph_le; [|split; [apply le_n|lia]|intros; exact I].
    rewrite repeat_str_S. rewrite <- !app_assoc in *. exact Ps.
  - unfold hd_ok. cbn [repeat_str]. destruct f as [|c f'] eqn:Ef; [discriminate|].
    cbn [ident] in Hf. apply andb_prop in Hf as [Hf _]. apply andb_prop in Hf as [Hf _].
    exists c. eexists. split; [cbn [List.app]; reflexivity|]. split; [unfold opstart; rewrite Hf; reflexivity|].
    intros _. unfold letter in Hf. split; intros ->; discriminate.
Qed.

Lemma print_fdiv nm a b : names_ok nm -> printed nm a -> printed nm b -> printed nm (EOp op_fdiv_q [a; b]).
Proof.
  intros Hn Ha Hb. destruct (names_fun nm op_fdiv_q Hn) as (Gn & Hf); [cbn; tauto|].
  destruct (printed_15 _ _ Ha) as (s1 & t1 & E1 & T1 & P1 & _).
  destruct (printed_15 _ _ Hb) as (s2 & t2 & E2 & T2 & P2 & _).
  pose proof (Ph_call2 _ s1 t1 s2 t2 Hf P1 P2) as P0. set (f := c_fun nm op_fdiv_q) in *.
  eexists. eexists. split; [|split; [|split]].
  - cbn [print_ast_expr_c op_eqb op_num Nat.eqb List.length map]. rewrite E1, E2. cbn [nth_print nth_error bind].
    rewrite Gn. reflexivity.
  - cbn [tree_of map]. rewrite T1, T2. reflexivity.
  - eapply Ph_le; [exact P0|cbn; lia|intros; exact I].
  - destruct f as [|c f'] eqn:Ef; [discriminate|].
    cbn [ident] in Hf. apply andb_prop in Hf as [Hf _]. apply andb_prop in Hf as [Hf _].
    exists c. eexists. split; [cbn [List.app]; reflexivity|]. split; [unfold opstart; rewrite Hf; reflexivity|].
    intros _. unfold letter in Hf. split; intros ->; discriminate.
Qed.

Lemma print_cond nm o a b c : o = op_cond \/ o = op_select -> is_op [op_cond; op_select] a = false ->
  printed nm a -> printed nm b -> printed nm c -> printed nm (EOp o [a; b; c]).
Proof.
  intros Ho Na Ha Hb Hc. destruct Ha as (s1 & t1 & E1 & T1 & P1 & (h & s' & Es & Hh & _)).
  destruct (printed_15 _ _ Hb) as (s2 & t2 & E2 & T2 & P2 & _).
  destruct (printed_15 _ _ Hc) as (s3 & t3 & E3 & T3 & P3 & _).
  assert (P1' : Ph 14 Kbase s1 t1).
  { eapply Ph_le; [exact P1| |apply Kof_base]. split; [|lia].
    destruct a as [|o' args|x|v]; cbn -[Z.ltb]; try lia; [destruct o'; cbn in Na |- *; try discriminate; lia|].
    destruct (v <? 0); lia. }
  pose proof (Ph_cond _ _ _ _ _ _ _ P1' P2 P3) as P0.
  eexists. exists (CCond t1 t2 t3). split; [|split; [|split]].
  - destruct Ho as [-> | ->]; cbn [print_ast_expr_c op_eqb op_num Nat.eqb List.length map orb];
      rewrite E1, E2, E3; cbn [nth_print nth_error bind]; reflexivity.
  - destruct Ho as [-> | ->]; cbn [tree_of map]; rewrite T1, T2, T3; reflexivity.
  - replace (Kof (EOp o [a; b; c])) with Kbase by (destruct Ho as [-> | ->]; reflexivity).
    replace (level (EOp o [a; b; c])) with 15%nat by (destruct Ho as [-> | ->]; reflexivity). exact P0.
  - subst s1. exists h. eexists. split; [reflexivity|]. split; [exact Hh|].
    destruct Ho as [-> | ->]; cbn; lia.
Qed.

(** the first argument of a call or access *)
Lemma postfix_first nm f : postfix_like f = true -> printed nm f ->
  exists s t, print_ast_expr_c nm f = Ok s /\ tree_of nm f = Some t /\ Ph 2 Kpost s t /\
    exists c s', s = c :: s' /\ opstart c = true /\ c <> 45 /\ c <> 38.
Proof.
  intros Hp (s & t & E & T & H & (c & s' & Es & Hc & Hm)). exists s, t.
  assert (L : (level f <= 2)%nat) by (destruct f as [|o args|x|v]; try discriminate; [destruct o; try discriminate; cbn; lia|cbn; lia]).
  split; [exact E|]. split; [exact T|]. split.
  - eapply Ph_le; [exact H|lia|]. unfold Kof. rewrite Hp. auto.
  - exists c, s'. split; [exact Es|]. split; [exact Hc|]. destruct (Hm ltac:(lia)) as [M1 M2].
    split; intros ->.
    + specialize (M1 eq_refl). destruct f as [|o args|x|v]; try discriminate. destruct o; discriminate.
    + specialize (M2 eq_refl). destruct f as [|o args|x|v]; try discriminate. destruct o; discriminate.
Qed.

Lemma access_rest : forall ss ts, Forall2 (fun s t => Ph 15 Kbase s t) ss ts ->
  forall acc ta, Ph 2 Kpost acc ta ->
  exists s, print_rest (codes "[") (codes "]") (map Ok ss) = Ok s /\ Ph 2 Kpost (acc ++ s) (fold_left CIndex ts ta).
Proof.
  intros ss ts H. induction H as [|s t ss ts Hs _ IH]; intros acc ta Ha.
  - exists []. rewrite app_nil_r. auto.
  - pose proof (Ph_index _ _ _ _ Ha Hs) as H2.
    assert (H2' : Ph 2 Kpost (acc ++ codes "[" ++ s ++ codes "]") (CIndex ta t))
      by (eapply Ph_le; [exact H2|lia|intros; exact I]).
    destruct (IH _ _ H2') as (s' & E & P2). cbn [map print_rest bind]. rewrite E. cbn [bind].
    eexists. split; [reflexivity|]. rewrite <- !app_assoc in P2. exact P2.
Qed.

Lemma print_access nm f args : postfix_like f = true -> printed nm f -> Forall (printed nm) args ->
  printed nm (EOp op_access (f :: args)).
Proof.
  intros Hp Hf Hr. destruct (postfix_first _ _ Hp Hf) as (s1 & t1 & E1 & T1 & P1 & (c & s' & Es & Hc & M1 & M2)).
  destruct (printed_list _ _ Hr) as (ss & ts & E & T & F).
  destruct (access_rest ss ts F _ _ P1) as (s & Es' & Ps).
  exists (s1 ++ s), (fold_left CIndex ts t1). split; [|split; [|split]].
  - cbn [print_ast_expr_c op_eqb op_num Nat.eqb]. unfold print_access_c. cbn [map]. rewrite E1, E. cbn [bind].
    rewrite Es'. reflexivity.
  - cbn [tree_of map all_some]. rewrite T1, T. reflexivity.
  - exact Ps.
  - subst s1. exists c. eexists. split; [reflexivity|]. split; [exact Hc|]. intros _. split; intros; contradiction.
Qed.

Lemma call_rest : forall ss ts, Forall2 (fun s t => Ph 15 Kbase s t) ss ts ->
  exists s, print_rest (codes ", ") [] (map Ok ss) = Ok s /\
    forall acc ta, Ph 15 Kbase acc ta -> PhA (acc ++ s) (ta :: ts).
Proof.
  intros ss ts H. induction H as [|s t ss ts Hs _ IH].
  - exists []. split; [reflexivity|]. intros acc ta Ha. rewrite app_nil_r. apply PhA_one. exact Ha.
  - destruct IH as (s' & E & P2). cbn [map print_rest bind]. rewrite E. cbn [bind].
    eexists. split; [reflexivity|]. intros acc ta Ha. cbn [List.app].
    apply PhA_more; [exact Ha|]. apply P2. exact Hs.
Qed.

Lemma print_call nm f args : postfix_like f = true -> printed nm f -> Forall (printed nm) args ->
  printed nm (EOp op_call (f :: args)).
Proof.
  intros Hp Hf Hr. destruct (postfix_first _ _ Hp Hf) as (s1 & t1 & E1 & T1 & P1 & (c & s' & Es & Hc & M1 & M2)).
  destruct args as [|a args].
  - exists (s1 ++ codes "()"), (CCall t1 []). split; [|split; [|split]].
    + cbn [print_ast_expr_c op_eqb op_num Nat.eqb map print_call_c]. rewrite E1. reflexivity.
    + cbn [tree_of map all_some]. rewrite T1. reflexivity.
    + eapply Ph_le; [apply Ph_call0; exact P1|cbn; lia|intros; exact I].
    + subst s1. exists c. eexists. split; [reflexivity|]. split; [exact Hc|]. intros _. split; intros; contradiction.
  - inversion Hr as [|? ? Ha Hr']; subst.
    destruct (printed_15 _ _ Ha) as (s2 & t2 & E2 & T2 & P2 & _).
    destruct (printed_list _ _ Hr') as (ss & ts & E & T & F).
    destruct (call_rest ss ts F) as (s & Es' & Ps).
    exists ((c :: s') ++ codes "(" ++ (s2 ++ s) ++ codes ")"), (CCall t1 (t2 :: ts)). split; [|split; [|split]].
    + cbn [print_ast_expr_c op_eqb op_num Nat.eqb map print_call_c]. rewrite E1, E2, E. cbn [bind]. rewrite Es'.
      cbn [bind]. rewrite <- !app_assoc. reflexivity.
    + cbn [tree_of map all_some]. rewrite T1, T2, T. reflexivity.
    + eapply Ph_le; [apply Ph_call; [exact P1|apply Ps; exact P2]|cbn; lia|intros; exact I].
    + exists c. eexists. split; [reflexivity|]. split; [exact Hc|]. intros _. split; intros; contradiction.
Qed.

Lemma print_member nm a x : names_ok nm -> (forall v, a <> EInt v) -> ident x = true -> printed nm a -> printed nm (EOp op_member [a; EId x]).
Proof.
  intros Hn Hi Hx Ha. destruct (sub_printed nm op_member [a; EId x] 0 true a eq_refl Ha) as (s & t & E & T & H).
  assert (HP : Ph 2 Kpost s t /\ exists c s', s = c :: s' /\ opstart c = true /\ c <> 45 /\ c <> 38).
  { destruct (sub_expr_need_parens op_member a true) eqn:N.
    - destruct H as (H & Hh & Hs). split; [eapply Ph_le; [exact H|lia|intros; exact I]|].
      destruct s as [|c s]; [congruence|]. cbn in Hh. subst c. exists 40, s. repeat split; auto; discriminate.
    - destruct H as (H & (c & s' & Es & Hc & Hm)).
      assert (La : (level a <= 2)%nat /\ postfix_like a = true \/ a = EErr).
      { apply need_parens_false in N as [(o' & args' & -> & D)|N].
        - left. cbn [level]. change (op_prec op_member) with 2%nat in D. split; [lia|].
          destruct o'; cbn in D; try lia; reflexivity.
        - destruct a as [|o' args'|y|v]; [right; reflexivity|destruct (N o' args' eq_refl)| |destruct (Hi v eq_refl)].
          left. split; [cbn; lia|reflexivity]. }
      destruct La as [[La Pl]| ->]; [|destruct Ha as (? & ? & _ & Te & _); discriminate].
      split; [eapply Ph_le; [exact H|lia|]; unfold Kof; rewrite Pl; auto|].
      exists c, s'. split; [exact Es|]. split; [exact Hc|]. destruct (Hm ltac:(lia)) as [M1 M2].
      split; intros ->.
      + specialize (M1 eq_refl). destruct a as [|o args|y|v]; try discriminate. destruct o; discriminate.
      + specialize (M2 eq_refl). destruct a as [|o args|y|v]; try discriminate. destruct o; discriminate. }
  destruct HP as (HP & (c & s' & Es & Hc & M1 & M2)).
  exists (s ++ codes "." ++ x), (CMember (codes ".") t x). split; [|split; [|split]].
  - cbn [print_ast_expr_c op_eqb op_num Nat.eqb List.length map orb negb]. cbn [map print_ast_expr_c] in E. rewrite E. cbn [bind].
    unfold get_op_str_c. rewrite (names_default nm op_member) by (auto; discriminate). reflexivity.
  - cbn [tree_of map]. rewrite T. reflexivity.
  - apply Ph_member; auto.
  - subst s. exists c. eexists. split; [reflexivity|]. split; [exact Hc|]. intros _. split; intros; contradiction.
Qed.

(** the operand of a unary operator *)
Lemma sub_unary nm o a : op_prec o = 3%nat -> op_left o = false -> printed nm a ->
  exists c s t, print_sub_expr_c o [a] (map (print_ast_expr_c nm) [a]) 0 false = Ok (c :: s) /\
    tree_of nm a = Some t /\ Ph 3 Kbase (c :: s) t /\ opstart c = true /\
    (c = 45 -> starts_minus a = true) /\ (c = 38 -> is_op [op_address_of] a = true).
Proof.
  intros Ho Hl Ha. destruct (sub_printed nm o [a] 0 false a eq_refl Ha) as (s & t & E & T & H).
  destruct (sub_expr_need_parens o a false) eqn:N.
  - destruct H as (H & Hh & Hs). destruct s as [|c s]; [congruence|]. cbn in Hh. subst c.
    exists 40, s, t. split; [exact E|]. split; [exact T|].
    split; [eapply Ph_le; [exact H|lia|intros; exact I]|]. repeat split; auto; discriminate.
  - destruct H as (H & (c & s' & -> & Hc & Hm)).
    assert (La : (level a <= 3)%nat).
    { apply need_parens_false in N as [(o' & args' & -> & D)|N]; [cbn [level]; lia|apply level_nonop; exact N]. }
    exists c, s', t. split; [exact E|]. split; [exact T|].
    split; [eapply Ph_le; [exact H|lia|apply Kof_base]|]. split; [exact Hc|]. apply Hm. exact La.
Qed.

Lemma print_minus nm a : names_ok nm -> starts_minus a = false -> printed nm a -> printed nm (EOp op_minus [a]).
Proof.
  intros Hn Hs Ha. destruct (sub_unary nm op_minus a eq_refl eq_refl Ha) as (c & s & t & E & T & H & Hc & M1 & _).
  exists (codes "-" ++ c :: s), (CUn (codes "-") t). split; [|split; [|split]].
  - cbn [print_ast_expr_c op_eqb op_num Nat.eqb List.length]. rewrite E. cbn [bind].
    unfold get_op_str_c. rewrite (names_default nm op_minus) by (auto; discriminate). reflexivity.
  - cbn [tree_of map]. rewrite T. reflexivity.
  - apply Ph_un; auto. intros ->. specialize (M1 eq_refl). congruence.
  - exists 45. eexists. split; [reflexivity|]. split; [reflexivity|]. intros _. split; [reflexivity|discriminate].
Qed.
Lemma print_addr nm a : names_ok nm -> is_op [op_address_of] a = false -> printed nm a -> printed nm (EOp op_address_of [a]).
Proof.
  intros Hn Hs Ha. destruct (sub_unary nm op_address_of a eq_refl eq_refl Ha) as (c & s & t & E & T & H & Hc & _ & M2).
  exists (codes "&" ++ c :: s), (CUn (codes "&") t). split; [|split; [|split]].
  - cbn [print_ast_expr_c op_eqb op_num Nat.eqb List.length]. rewrite E. cbn [bind].
    unfold get_op_str_c. rewrite (names_default nm op_address_of) by (auto; discriminate). reflexivity.
  - cbn [tree_of map]. rewrite T. reflexivity.
  - apply Ph_addr; auto. intros ->. specialize (M2 eq_refl). congruence.
  - exists 38. eexists. split; [reflexivity|]. split; [reflexivity|]. intros _. split; [discriminate|reflexivity].
Qed.

Lemma dec_print_neg v : v < 0 -> dec_print v = codes "-" ++ dec_print (- v).
Proof. intros H. unfold dec_print. destruct (Z.ltb_spec v 0); [|lia]. destruct (Z.ltb_spec (- v) 0); [lia|reflexivity]. Qed.
Lemma dec_print_start v : 0 <= v -> exists c s, dec_print v = c :: s /\ digit c = true.
Proof.
  intros H. destruct (dec_print_spec v H) as (ds & E & D & Ne & _). rewrite E.
  destruct ds as [|c ds]; [congruence|]. exists c, ds. split; [reflexivity|]. apply (D c). left. reflexivity.
Qed.

Lemma print_int nm v : printed nm (EInt v).
Proof.
  unfold printed. cbn [print_ast_expr_c tree_of level]. exists (dec_print v). eexists. split; [reflexivity|].
  split; [reflexivity|]. change (Kof (EInt v)) with Kbase. destruct (Z.ltb_spec v 0).
  - rewrite dec_print_neg by auto. destruct (dec_print_start (- v) ltac:(lia)) as (c & s & E & D). split.
    + rewrite E. apply Ph_un; [unfold opstart; rewrite D; destruct (letter c); reflexivity|unfold digit in D; lia|].
      rewrite <- E. eapply Ph_le; [apply Ph_num; lia|lia|auto].
    + exists 45. eexists. split; [reflexivity|]. split; [reflexivity|]. intros _. split; [|discriminate].
      intros _. cbn. lia.
  - split; [apply Ph_num; auto|]. destruct (dec_print_start v ltac:(lia)) as (c & s & E & D). exists c, s.
    split; [exact E|]. split; [unfold opstart; rewrite D; destruct (letter c); reflexivity|].
    intros _. unfold digit in D. split; lia.
Qed.
Lemma print_id nm x : ident x = true -> printed nm (EId x).
Proof.
  intros H. exists x, (CId x). split; [reflexivity|]. split; [reflexivity|]. split; [apply Ph_id; exact H|].
  destruct x as [|c x]; [discriminate|]. cbn [ident] in H.
  apply andb_prop in H as [H _]. apply andb_prop in H as [H _]. exists c, x. split; [reflexivity|].
  split; [unfold opstart; rewrite H; reflexivity|]. intros _. unfold letter in H. split; lia.
Qed.

Lemma printed_all nm : names_ok nm -> forall e, printable e = true -> printed nm e.
Proof.
  intros Hn. apply (expr_ind2 (fun e => printable e = true -> printed nm e)).
  - discriminate.
  - intros o args IH H. cbn [printable] in H. apply andb_prop in H as [Ho Ha].
    assert (F : Forall (printed nm) args).
    { rewrite Forall_forall in *. rewrite forallb_forall in Ha. intros a Hin. apply IH; auto. }
    clear IH.
    assert (HB : binary_op o = true -> printed nm (EOp o args)).
    { intros Hb. destruct args as [|a [|b [|c args]]]; try (destruct o; discriminate).
      inversion F as [|? ? H1 F1]; subst. inversion F1; subst. apply print_binary; auto. }
    destruct o; try (apply HB; reflexivity); clear HB; cbn [printable_op] in Ho.
    + destruct args as [|a [|b args]]; try discriminate. apply print_reduce; auto. cbn; lia.
    + destruct args as [|a [|b args]]; try discriminate. apply print_reduce; auto. cbn; lia.
    + destruct args as [|a [|b args]]; try discriminate. inversion F; subst. apply print_minus; auto.
      apply negb_true_iff. exact Ho.
    + destruct args as [|a [|b [|c args]]]; try discriminate. inversion F as [|? ? H1 F1]; subst. inversion F1; subst.
      apply print_fdiv; auto.
    + destruct args as [|a [|b [|c [|d args]]]]; try discriminate. inversion F as [|? ? H1 F1]; subst.
      inversion F1 as [|? ? H2 F2]; subst. inversion F2; subst. apply print_cond; auto. apply negb_true_iff. exact Ho.
    + destruct args as [|a [|b [|c [|d args]]]]; try discriminate. inversion F as [|? ? H1 F1]; subst.
      inversion F1 as [|? ? H2 F2]; subst. inversion F2; subst. apply print_cond; auto. apply negb_true_iff. exact Ho.
    + destruct args as [|f args]; try discriminate. inversion F; subst. apply print_call; auto.
    + destruct args as [|f args]; try discriminate. inversion F; subst. apply print_access; auto.
    + destruct args as [|a [|b [|c args]]]; try discriminate; try (destruct b; discriminate).
      destruct b as [|o' args'|x|v]; try discriminate.
      inversion F as [|? ? H1 F1]; subst. cbn [forallb] in Ha. apply andb_prop in Ha as [_ Ha].
      apply andb_prop in Ha as [Hx _]. apply print_member; auto. intros v ->. discriminate.
    + destruct args as [|a [|b args]]; try discriminate. inversion F; subst. apply print_addr; auto.
      apply negb_true_iff. exact Ho.
  - intros x H. apply print_id. exact H.
  - intros v _. apply print_int.
Qed.

(** C40: the printed text is read as the denoted tree *)
Lemma print_reads_as nm e : names_ok nm -> printable e = true ->
  exists s t, print_ast_expr_c nm e = Ok s /\ tree_of nm e = Some t /\ reads_as s t /\
    forall t', reads_as s t' -> t' = t.
Proof.
  intros Hn He. destruct (printed_15 _ _ (printed_all nm Hn e He)) as (s & t & E & T & (w & Hw & HL) & _).
  exists s, t. split; [exact E|]. split; [exact T|].
  assert (R : reads_as s t).
  { exists w. split; [|exact Hw]. specialize (HL [] [] I Lx_nil). rewrite !app_nil_r in HL. apply Lx_lex. exact HL. }
  split; [exact R|]. intros t' R'. eapply reads_as_unique; eauto.
Qed.
