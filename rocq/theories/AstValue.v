(** The C value of the denoted tree is the documented value. *)
From Coq Require Import ZArith List Bool String Lia ZifyBool.
From Verif Require Import MatModel StreamModel AstModel AstSpec AstParse AstLex AstProofs.
Import ListNotations.
Local Open Scope string_scope.
Local Open Scope list_scope.
Local Open Scope Z_scope.

Definition val_ok nm env fn (e : expr) : Prop :=
  forall v t, value env e = Some v -> tree_of nm e = Some t -> cval env fn t = Some v.

Lemma all_some_vals nm env fn : forall args vs ts, Forall (val_ok nm env fn) args ->
  all_some (map (value env) args) = Some vs -> all_some (map (tree_of nm) args) = Some ts ->
  Forall2 (fun v t => cval env fn t = Some v) vs ts.
Proof.
  induction args as [|a args IH]; intros vs ts F Ev Et; cbn [map all_some] in Ev, Et.
  - injection Ev as <-. injection Et as <-. constructor.
  - inversion F as [|? ? Ha Fa]; subst.
    destruct (value env a) as [v|] eqn:E1; [|discriminate]. destruct (tree_of nm a) as [t|] eqn:E2; [|discriminate].
    destruct (all_some (map (value env) args)) as [vs'|] eqn:E3; [|discriminate].
    destruct (all_some (map (tree_of nm) args)) as [ts'|] eqn:E4; [|discriminate].
    injection Ev as <-. injection Et as <-. constructor; auto.
Qed.

Lemma fold_cval env fn f (g : Z -> Z -> Z) : (forall a b, fn f [a; b] = Some (g a b)) ->
  forall vs ts, Forall2 (fun v t => cval env fn t = Some v) vs ts -> forall v t, cval env fn t = Some v ->
  cval env fn (fold_left (fun a b => CCall (CId f) [a; b]) ts t) = Some (fold_left g vs v).
Proof.
  intros Hf vs ts H. induction H as [|v' t' vs ts H _ IH]; intros v t Ht; [exact Ht|].
  cbn [fold_left]. apply IH. cbn [cval map]. rewrite Ht, H. cbn [all_some]. apply Hf.
Qed.

Lemma reduce_val nm env fn f g args v t : (forall a b, fn f [a; b] = Some (g a b)) ->
  Forall (val_ok nm env fn) args ->
  match all_some (map (value env) args) with Some l => fold1 g l | None => None end = Some v ->
  match all_some (map (tree_of nm) args) with Some l => reduce f l | None => None end = Some t ->
  cval env fn t = Some v.
Proof.
  intros Hf F Hv Ht. destruct (all_some (map (value env) args)) as [vs|] eqn:Ev; [|discriminate].
  destruct (all_some (map (tree_of nm) args)) as [ts|] eqn:Et; [|discriminate].
  pose proof (all_some_vals _ _ _ _ _ _ F Ev Et) as H2.
  destruct H2 as [|v1 t1 vs ts H1 H2]; [discriminate|]. cbn [reduce] in Ht. injection Ht as <-.
  destruct vs as [|v2 vs]; [discriminate|]. cbn [fold1] in Hv. injection Hv as <-.
  apply (fold_cval env fn f g Hf (v2 :: vs) ts H2 v1 t1 H1).
Qed.

Ltac op_eval :=
  repeat match goal with |- context [oneof ?a ?l] =>
    let b := eval vm_compute in (oneof a l) in change (oneof a l) with b end; cbv iota.

Lemma div_floor_quot a b : b <> 0 -> a mod b = 0 -> Z.quot a b = a / b.
Proof.
  intros Hb Hm. pose proof (Z.div_mod a b Hb) as E. rewrite Hm, Z.add_0_r in E.
  set (q := a / b) in *. rewrite E. rewrite Z.mul_comm. apply Z.quot_mul. exact Hb.
Qed.
Lemma rem_zero a b : 0 < b -> (Z.rem a b =? 0) = (a mod b =? 0).
Proof.
  intros Hb. destruct (Z.eqb_spec (Z.rem a b) 0) as [E|E]; destruct (Z.eqb_spec (a mod b) 0) as [E'|E']; auto; exfalso.
  - apply E'. apply Z.mod_divide; [lia|]. apply Z.rem_divide in E; [exact E|lia].
  - apply E. apply Z.rem_divide; [lia|]. apply Z.mod_divide in E'; [exact E'|lia].
Qed.

Definition val_ok2 nm env fn (e : expr) : Prop :=
  val_ok nm env fn e /\ match e with EOp _ args => Forall (val_ok nm env fn) args | _ => True end.

Lemma value_cval2 nm env fn : functions_ok nm fn -> forall e, val_ok2 nm env fn e.
Proof.
  intros (Fmax & Fmin & Fdiv). apply expr_ind2.
  - split; [|exact I]. intros v t H. discriminate.
  - intros o args F2.
    assert (F : Forall (val_ok nm env fn) args) by (eapply Forall_impl; [|exact F2]; intros a Ha; apply Ha).
    split; [|exact F]. intros v t Hv Ht.
    destruct (op_eqb o op_max) eqn:O1.
    { destruct o; try discriminate. cbn [value tree_of] in Hv, Ht. eapply reduce_val; [exact Fmax|exact F|exact Hv|exact Ht]. }
    destruct (op_eqb o op_min) eqn:O2.
    { destruct o; try discriminate. cbn [value tree_of] in Hv, Ht. eapply reduce_val; [exact Fmin|exact F|exact Hv|exact Ht]. }
    destruct (op_eqb o op_eq && match args with [EOp op_zdiv_r [_; _]; EInt _] => true | _ => false end) eqn:Z.
    { destruct o; try discriminate. cbn [op_eqb op_num Nat.eqb andb] in Z.
      destruct args as [|[|o2 args2|?|?] [|z [|]]]; try discriminate;
        destruct o2; try discriminate; destruct args2 as [|a [|b [|]]]; try discriminate; destruct z as [| | |z]; try discriminate.
      clear O1 O2 Z. cbn [value] in Hv.
      destruct (value env a) as [x|] eqn:Ex; [|discriminate]. destruct (value env b) as [y|] eqn:Ey; [|discriminate].
      destruct (0 <? y) eqn:Py; [|discriminate]. destruct (Z.eqb_spec z 0) as [->|]; [|discriminate].
      cbn [andb] in Hv. injection Hv as <-. cbn [tree_of map] in Ht.
      inversion F2 as [|? ? [_ Fz] _]; subst. inversion Fz as [|? ? Va Fb]; subst. inversion Fb as [|? ? Vb _]; subst.
      destruct (tree_of nm a) as [ta|] eqn:Ta; [|discriminate]. destruct (tree_of nm b) as [tb|] eqn:Tb; [|discriminate].
      cbn [tree_of_op c_binop Z.ltb Z.compare] in Ht. injection Ht as <-.
      cbn [cval]. rewrite (Va _ _ Ex Ta), (Vb _ _ Ey Tb). op_eval.
      destruct (Z.eqb_spec y 0); [lia|]. cbv beta iota. rewrite rem_zero by lia. reflexivity. }
    assert (Hv' : value_op o (map (value env) args) = Some v).
    { destruct o; try discriminate; try exact Hv.
      destruct args as [|[|[] [|? [|? [|]]]|?|?] [|[|? ?|?|?] [|]]]; cbn [op_eqb op_num Nat.eqb andb] in Z; try discriminate; exact Hv. }
    assert (Ht' : tree_of_op nm o (map (tree_of nm) args) = Some t \/ o = op_call \/ o = op_access).
    { destruct o; try discriminate; auto. }
    clear Hv Ht O1 O2 Z F2. destruct Ht' as [Ht|[-> | ->]]; [|cbn in Hv'; discriminate|cbn in Hv'; discriminate].
    rename Hv' into Hv.
    destruct args as [|a [|b [|c [|d args]]]].
    + destruct o; discriminate.
    + (* one argument *)
      inversion F as [|? ? Va _]; subst. unfold val_ok in Va. cbn [map] in Hv, Ht.
      destruct (value env a) as [x|]; [|destruct o; discriminate].
      destruct (tree_of nm a) as [ta|]; [|destruct o; discriminate]. specialize (Va _ _ eq_refl eq_refl).
      destruct o; try discriminate. cbn in Hv, Ht. injection Hv as <-. injection Ht as <-.
      cbn [cval]. rewrite Va. op_eval. reflexivity.
    + (* two arguments *)
      inversion F as [|? ? Va Fb]; subst. inversion Fb as [|? ? Vb _]; subst. clear F Fb. unfold val_ok in Va, Vb. cbn [map] in Hv, Ht.
      destruct (tree_of nm a) as [ta|]; [|destruct o; discriminate].
      destruct (tree_of nm b) as [tb|]; [|destruct o; discriminate].
      destruct (value env a) as [x|]; [|destruct o; discriminate]. specialize (Va _ _ eq_refl eq_refl).
      assert (Hc : forall st, c_binop o = Some st -> o <> op_fdiv_q -> t = CBin (codes st) ta tb).
      { intros st Hst Ho. destruct o; try discriminate; cbn in Ht, Hst; injection Hst as <-; injection Ht as <-; reflexivity. }
      destruct o; try discriminate;
        try (specialize (Hc _ eq_refl ltac:(discriminate)); subst t; cbn [cval]; rewrite Va; op_eval);
        cbn [value_op] in Hv.
      * destruct (value env b) as [y|]; [|discriminate]. rewrite (Vb _ _ eq_refl eq_refl). injection Hv as <-.
        destruct (Z.eqb_spec x 0); reflexivity.
      * destruct (Z.eqb_spec x 0); [exact Hv|]. destruct (value env b) as [y|]; [|discriminate].
        rewrite (Vb _ _ eq_refl eq_refl). exact Hv.
      * destruct (value env b) as [y|]; [|discriminate]. rewrite (Vb _ _ eq_refl eq_refl). injection Hv as <-.
        destruct (Z.eqb_spec x 0); reflexivity.
      * destruct (Z.eqb_spec x 0); [|exact Hv]. destruct (value env b) as [y|]; [|discriminate].
        rewrite (Vb _ _ eq_refl eq_refl). exact Hv.
      * destruct (value env b) as [y|]; [|discriminate]. rewrite (Vb _ _ eq_refl eq_refl). exact Hv.
      * destruct (value env b) as [y|]; [|discriminate]. rewrite (Vb _ _ eq_refl eq_refl). exact Hv.
      * destruct (value env b) as [y|]; [|discriminate]. rewrite (Vb _ _ eq_refl eq_refl). exact Hv.
      * destruct (value env b) as [y|]; [|discriminate]. rewrite (Vb _ _ eq_refl eq_refl).
        destruct (Z.eqb_spec y 0); [discriminate|]. cbn [orb] in Hv.
        destruct (Z.eqb_spec (x mod y) 0) as [Em|]; [|discriminate]. cbn [negb] in Hv. injection Hv as <-.
        f_equal. apply div_floor_quot; auto.
      * destruct (value env b) as [y|]; [|discriminate]. cbn in Ht. injection Ht as <-.
        cbn [cval map]. rewrite Va, (Vb _ _ eq_refl eq_refl). cbn [all_some].
        destruct (Z.ltb_spec 0 y); [|discriminate]. injection Hv as <-. apply Fdiv. auto.
      * destruct (value env b) as [y|]; [|discriminate]. rewrite (Vb _ _ eq_refl eq_refl).
        destruct (Z.leb_spec 0 x); [|discriminate]. destruct (Z.ltb_spec 0 y); [|discriminate].
        cbn [andb] in Hv. injection Hv as <-. destruct (Z.eqb_spec y 0); [lia|]. f_equal.
        apply Z.quot_div_nonneg; lia.
      * destruct (value env b) as [y|]; [|discriminate]. rewrite (Vb _ _ eq_refl eq_refl).
        destruct (Z.leb_spec 0 x); [|discriminate]. destruct (Z.ltb_spec 0 y); [|discriminate].
        cbn [andb] in Hv. injection Hv as <-. destruct (Z.eqb_spec y 0); [lia|]. f_equal.
        apply Z.rem_mod_nonneg; lia.
      * destruct (value env b) as [y|]; [|discriminate]. rewrite (Vb _ _ eq_refl eq_refl). exact Hv.
      * destruct (value env b) as [y|]; [|discriminate]. rewrite (Vb _ _ eq_refl eq_refl). exact Hv.
      * destruct (value env b) as [y|]; [|discriminate]. rewrite (Vb _ _ eq_refl eq_refl). exact Hv.
      * destruct (value env b) as [y|]; [|discriminate]. rewrite (Vb _ _ eq_refl eq_refl). exact Hv.
      * destruct (value env b) as [y|]; [|discriminate]. rewrite (Vb _ _ eq_refl eq_refl). exact Hv.
    + (* three arguments *)
      inversion F as [|? ? Va Fb]; subst. inversion Fb as [|? ? Vb Fc]; subst. inversion Fc as [|? ? Vc _]; subst.
      clear F Fb Fc. unfold val_ok in Va, Vb, Vc. cbn [map] in Hv, Ht.
      destruct (tree_of nm a) as [ta|]; [|destruct o; discriminate].
      destruct (tree_of nm b) as [tb|]; [|destruct o; discriminate].
      destruct (tree_of nm c) as [tc|]; [|destruct o; discriminate].
      destruct (value env a) as [x|]; [|destruct o; discriminate]. specialize (Va _ _ eq_refl eq_refl).
      destruct o; try discriminate; cbn in Hv, Ht; injection Ht as <-; cbn [cval]; rewrite Va.
      * destruct (Z.eqb_spec x 0); auto.
      * destruct (value env b) as [y|]; [|discriminate]. destruct (value env c) as [z|]; [|discriminate].
        injection Hv as <-. destruct (Z.eqb_spec x 0); auto.
    + exfalso. cbn [map] in Hv. destruct o; cbn in Hv; try discriminate;
        repeat match goal with H : context [match value env ?a with _ => _ end] |- _ => destruct (value env a) end; discriminate.
  - intros x. split; [|exact I]. intros v t Hv Ht. cbn in Hv, Ht. injection Ht as <-. exact Hv.
  - intros n. split; [|exact I]. intros v t Hv Ht. cbn [value tree_of] in Hv, Ht. injection Hv as <-. injection Ht as <-.
    destruct (Z.ltb_spec n 0); [|reflexivity]. cbn [cval]. op_eval. f_equal. lia.
Qed.

(** C40: the C text computes the documented value *)
Lemma print_value nm env fn e v : names_ok nm -> functions_ok nm fn -> printable e = true -> value env e = Some v ->
  exists s, print_ast_expr_c nm e = Ok s /\ forall t, reads_as s t -> cval env fn t = Some v.
Proof.
  intros Hn Hf He Hv. destruct (print_reads_as nm e Hn He) as (s & t & E & T & R & U).
  exists s. split; [exact E|]. intros t' R'. rewrite (U _ R').
  exact (proj1 (value_cval2 nm env fn Hf e) v t Hv T).
Qed.

(** ** the macros *)
Definition env2 (n1 : string) (v1 : Z) (n2 : string) (v2 : Z) : list Z -> Z :=
  fun x => if eqs x (codes n1) then v1 else if eqs x (codes n2) then v2 else 0.

Definition tree_fdiv : ctree :=
  Eval vm_compute in match lex (macro_body op_fdiv_q) with
                     | Some w => match par 100 15 w with Some (t, []) => t | _ => CInt 0 end
                     | None => CInt 0 end.
Definition tree_min : ctree :=
  Eval vm_compute in match lex (macro_body op_min) with
                     | Some w => match par 100 15 w with Some (t, []) => t | _ => CInt 0 end
                     | None => CInt 0 end.
Definition tree_max : ctree :=
  Eval vm_compute in match lex (macro_body op_max) with
                     | Some w => match par 100 15 w with Some (t, []) => t | _ => CInt 0 end
                     | None => CInt 0 end.

Lemma reads_as_computed s w t f : lex s = Some w -> par f 15 w = Some (t, []) ->
  reads_as s t /\ forall t', reads_as s t' -> t' = t.
Proof.
  intros El Ep. assert (R : reads_as s t).
  { apply par_sound in Ep as (w' & Ew & H). rewrite app_nil_r in Ew. subst w'. exists w. auto. }
  split; [exact R|]. intros t' R'. eapply reads_as_unique; eauto.
Qed.

Ltac cev t :=
  unfold t, env2; cbn [cval]; op_eval;
  repeat match goal with |- context [eqs ?a ?l] =>
    let b := eval vm_compute in (eqs a l) in change (eqs a l) with b end; cbv beta iota.

Ltac computed := eapply (reads_as_computed _ _ _ 100); [vm_compute; reflexivity|vm_compute; reflexivity].

Lemma unamb_ex : reads_as (codes "a - b - -c") (CBin (codes "-")
  (CBin (codes "-") (CId (codes "a")) (CId (codes "b"))) (CUn (codes "-") (CId (codes "c")))).
Proof.
  assert (U : reads_as (codes "a - b - -c") (CBin (codes "-")
    (CBin (codes "-") (CId (codes "a")) (CId (codes "b"))) (CUn (codes "-") (CId (codes "c")))) /\
    forall t, reads_as (codes "a - b - -c") t -> t = CBin (codes "-")
    (CBin (codes "-") (CId (codes "a")) (CId (codes "b"))) (CUn (codes "-") (CId (codes "c")))) by computed.
  apply U.
Qed.
Lemma macro_min_tree : reads_as (macro_body op_min) tree_min /\ forall t, reads_as (macro_body op_min) t -> t = tree_min.
Proof. computed. Qed.
Lemma macro_max_tree : reads_as (macro_body op_max) tree_max /\ forall t, reads_as (macro_body op_max) t -> t = tree_max.
Proof. computed. Qed.
Lemma macro_fdiv_tree : reads_as (macro_body op_fdiv_q) tree_fdiv /\ forall t, reads_as (macro_body op_fdiv_q) t -> t = tree_fdiv.
Proof. computed. Qed.

Lemma macro_min_val fn a b : forall t, reads_as (macro_body op_min) t -> cval (env2 "x" a "y" b) fn t = Some (Z.min a b).
Proof.
  assert (U : reads_as (macro_body op_min) tree_min /\ forall t, reads_as (macro_body op_min) t -> t = tree_min) by computed.
  intros t R. rewrite (proj2 U t R). cev tree_min.
  destruct (Z.ltb_spec a b); cbn [b2z Z.eqb]; f_equal; lia.
Qed.
Lemma macro_max_val fn a b : forall t, reads_as (macro_body op_max) t -> cval (env2 "x" a "y" b) fn t = Some (Z.max a b).
Proof.
  assert (U : reads_as (macro_body op_max) tree_max /\ forall t, reads_as (macro_body op_max) t -> t = tree_max) by computed.
  intros t R. rewrite (proj2 U t R). cev tree_max.
  destruct (a >? b) eqn:E; cbn [b2z Z.eqb]; f_equal; lia.
Qed.
Lemma macro_fdiv_val fn a b : 0 < b -> forall t, reads_as (macro_body op_fdiv_q) t -> cval (env2 "n" a "d" b) fn t = Some (a / b).
Proof.
  intros Hb.
  assert (U : reads_as (macro_body op_fdiv_q) tree_fdiv /\ forall t, reads_as (macro_body op_fdiv_q) t -> t = tree_fdiv) by computed.
  intros t R. rewrite (proj2 U t R). cev tree_fdiv.
  destruct (Z.eqb_spec b 0); [lia|]. destruct (Z.ltb_spec a 0); cbn [b2z Z.eqb]; f_equal.
  - rewrite Z.quot_div_nonneg by lia. pose proof (Z.div_mod a b ltac:(lia)). pose proof (Z.mod_pos_bound a b ltac:(lia)).
    assert ((- a + b - 1) / b = - (a / b)); [|lia].
    symmetry. apply Z.div_unique with (r := b - 1 - a mod b); lia.
  - apply Z.quot_div_nonneg; lia.
Qed.
Lemma macros_read o : In o [op_min; op_max; op_fdiv_q] -> exists t, reads_as (macro_body o) t.
Proof.
  assert (H1 : reads_as (macro_body op_min) tree_min /\ forall t, reads_as (macro_body op_min) t -> t = tree_min) by computed.
  assert (H2 : reads_as (macro_body op_max) tree_max /\ forall t, reads_as (macro_body op_max) t -> t = tree_max) by computed.
  assert (H3 : reads_as (macro_body op_fdiv_q) tree_fdiv /\ forall t, reads_as (macro_body op_fdiv_q) t -> t = tree_fdiv) by computed.
  cbn [In]. intros H. repeat destruct H as [<-|H]; [exists tree_min|exists tree_max|exists tree_fdiv|destruct H]; tauto.
Qed.

(** expressions outside [printable] *)
Definition ex_x := EId (codes "x").
Definition ex_y := EId (codes "y").
Lemma minus_minus_bad : exists s t, print_ast_expr_c no_names (EOp op_minus [EOp op_minus [ex_x]]) = Ok s /\
  reads_as s (CUn (codes "--") (CId (codes "x"))) /\
  tree_of no_names (EOp op_minus [EOp op_minus [ex_x]]) = Some t /\ ~ reads_as s t.
Proof.
  exists (codes "--x"). eexists. split; [reflexivity|].
  assert (U : reads_as (codes "--x") (CUn (codes "--") (CId (codes "x"))) /\
    forall t, reads_as (codes "--x") t -> t = CUn (codes "--") (CId (codes "x"))) by computed.
  split; [apply U|]. split; [reflexivity|]. intros R. apply (proj2 U) in R. discriminate.
Qed.
Lemma cond_cond_bad : exists s t t', 
  let e := EOp op_cond [EOp op_cond [ex_x; EInt 0; EInt 1]; EInt 2; EInt 3] in
  print_ast_expr_c no_names e = Ok s /\ tree_of no_names e = Some t /\ reads_as s t' /\ ~ reads_as s t /\
  value (fun _ => 1) e = Some 3 /\ cval (fun _ => 1) (fun _ _ => None) t' = Some 0.
Proof.
  exists (codes "x ? 0 : 1 ? 2 : 3"). eexists. exists (CCond (CId (codes "x")) (CInt 0) (CCond (CInt 1) (CInt 2) (CInt 3))).
  assert (U : reads_as (codes "x ? 0 : 1 ? 2 : 3") (CCond (CId (codes "x")) (CInt 0) (CCond (CInt 1) (CInt 2) (CInt 3))) /\
    forall t, reads_as (codes "x ? 0 : 1 ? 2 : 3") t -> t = CCond (CId (codes "x")) (CInt 0) (CCond (CInt 1) (CInt 2) (CInt 3))) by computed.
  split; [reflexivity|]. split; [reflexivity|]. split; [apply U|]. split; [|split; reflexivity].
  intros R. apply (proj2 U) in R. discriminate.
Qed.
Lemma access_bad : exists s t, 
  let e := EOp op_access [EOp op_add [ex_x; ex_y]; EInt 0] in
  print_ast_expr_c no_names e = Ok s /\ tree_of no_names e = Some t /\ ~ reads_as s t.
Proof.
  exists (codes "x + y[0]"). eexists.
  assert (U : reads_as (codes "x + y[0]") (CBin (codes "+") (CId (codes "x")) (CIndex (CId (codes "y")) (CInt 0))) /\
    forall t, reads_as (codes "x + y[0]") t -> t = CBin (codes "+") (CId (codes "x")) (CIndex (CId (codes "y")) (CInt 0))) by computed.
  split; [reflexivity|]. split; [reflexivity|]. intros R. apply (proj2 U) in R. discriminate.
Qed.
