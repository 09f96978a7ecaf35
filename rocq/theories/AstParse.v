(** The grammar of AstSpec is unambiguous: a recursive descent parser finds
    the tree of every derivation. *)
From Coq Require Import ZArith List Bool String Lia.
From Verif Require Import StreamModel AstModel AstSpec.
Import ListNotations.
Local Open Scope string_scope.
Local Open Scope list_scope.
Local Open Scope nat_scope.

Lemma eqs_eq a b : eqs a b = true <-> a = b.
Proof.
  revert b. induction a as [|x a IH]; intros [|y b]; cbn; split; intros H; try discriminate; auto.
  - apply andb_prop in H as [H1 H2]. apply Z.eqb_eq in H1. apply IH in H2. congruence.
  - injection H as -> ->. rewrite Z.eqb_refl. cbn. apply IH. reflexivity.
Qed.
Lemma eqs_refl a : eqs a a = true. Proof. apply eqs_eq. reflexivity. Qed.
Lemma oneof_in w l : oneof w l = true -> exists s, In s l /\ w = codes s.
Proof. unfold oneof. rewrite existsb_exists. intros (s & H & E). apply eqs_eq in E. eauto. Qed.

Definition is (s : string) (w : list tok) : option (list tok) :=
  match w with TP p :: r => if eqs p (codes s) then Some r else None | _ => None end.

Definition isloop (n : nat) : bool := (n =? 2) || ((5 <=? n) && (n <=? 14)).

Fixpoint par (f n : nat) (w : list tok) {struct f} : option (ctree * list tok) :=
  match f with
  | O => None
  | S f =>
      match n with
      | 0 => match w with
             | TId x :: r => Some (CId x, r)
             | TNum v :: r => Some (CInt v, r)
             | TP p :: r => if eqs p (codes "(") then
                              let! (t, r) := par f 15 r in
                              match is ")" r with Some r => Some (t, r) | None => None end
                            else None
             | [] => None
             end
      | 1 => par f 0 w
      | 3 => match w with
             | TP u :: r => if unop u then let! (t, r) := par f 3 r in Some (CUn u t, r) else par f 2 w
             | _ => par f 2 w
             end
      | 4 => par f 3 w
      | 15 => let! (c, r) := par f 14 w in
              match is "?" r with
              | Some r => let! (a, r) := par f 15 r in
                          match is ":" r with
                          | Some r => let! (b, r) := par f 15 r in Some (CCond c a b, r)
                          | None => None
                          end
              | None => Some (c, r)
              end
      | S m => let! (t, r) := par f m w in loop f n t r
      end
  end
with loop (f n : nat) (t : ctree) (w : list tok) {struct f} : option (ctree * list tok) :=
  match f with
  | O => None
  | S f =>
      match w with
      | TP o :: r =>
          if n =? 2 then
            if eqs o (codes "(") then
              match is ")" r with
              | Some r => loop f n (CCall t []) r
              | None => let! (ts, r) := pargs f r in
                        match is ")" r with Some r => loop f n (CCall t ts) r | None => None end
              end
            else if eqs o (codes "[") then
              let! (i, r) := par f 15 r in
              match is "]" r with Some r => loop f n (CIndex t i) r | None => None end
            else if memop o then match r with TId x :: r => loop f n (CMember o t x) r | _ => None end
            else if postop o then loop f n (CPost o t) r
            else Some (t, w)
          else if binlevel o =? n then
            let! (b, r) := par f (n - 1) r in loop f n (CBin o t b) r
          else Some (t, w)
      | _ => Some (t, w)
      end
  end
with pargs (f : nat) (w : list tok) {struct f} : option (list ctree * list tok) :=
  match f with
  | O => None
  | S f => let! (t, r) := par f 15 w in
           match is "," r with
           | Some r => let! (ts, r) := pargs f r in Some (t :: ts, r)
           | None => Some ([t], r)
           end
  end.

(** level at which a token continues an expression *)
Definition lvl (o : list Z) : nat :=
  if oneof o ["("; "["; "."; "->"; "++"; "--"] then 2
  else if 0 <? binlevel o then binlevel o
  else if oneof o ["?"] then 15 else 16.
Definition follow (n : nat) (r : list tok) : Prop :=
  match r with TP o :: _ => n < lvl o | _ => True end.
Lemma follow_le n m r : m <= n -> follow n r -> follow m r.
Proof. destruct r as [|[]]; cbn; auto; lia. Qed.

Definition ev {A} (g : nat -> option A) (a : A) : Prop := exists N, forall f, N <= f -> g f = Some a.

Definition post_part (n : nat) (t : ctree) (r : list tok) (q : ctree * list tok) : Prop :=
  if isloop n then ev (fun f => loop f n t r) q else q = (t, r) /\ follow n r.

Lemma binlevel_cases o : binlevel o = 0 \/ 5 <= binlevel o <= 14.
Proof. unfold binlevel. repeat (match goal with |- context [if ?b then _ else _] => destruct b end; [right; lia|]). auto. Qed.

Lemma lvl_bin o : binlevel o <> 0 -> lvl o = binlevel o.
Proof.
  intros H. unfold lvl. destruct (oneof o ["("; "["; "."; "->"; "++"; "--"]) eqn:E.
  - apply oneof_in in E as (s & I & ->). cbn [In] in I. repeat destruct I as [<-|I]; try (exfalso; apply H; reflexivity). destruct I.
  - destruct (Nat.ltb_spec 0 (binlevel o)); [reflexivity|lia].
Qed.
Lemma lvl_bin_inv o n : binlevel o = n -> n <> 0 -> lvl o = n.
Proof. intros <- H. apply lvl_bin; auto. Qed.

(** a loop stops if nothing follows at its level *)
Lemma loop_stop n t r : follow n r -> isloop n = true -> ev (fun f => loop f n t r) (t, r).
Proof.
  intros F L. exists 1. intros [|f] Hf; [lia|]. cbn [loop]. destruct r as [|[x|v|o] r]; auto.
  cbn in F. destruct (Nat.eqb_spec n 2) as [->|Hn].
  - unfold lvl in F. destruct (oneof o ["("; "["; "."; "->"; "++"; "--"]) eqn:E; [lia|].
    unfold oneof in E. cbn [existsb] in E. repeat (apply orb_false_iff in E as [? E]).
    unfold memop, postop, oneof. cbn [existsb].
    repeat match goal with H : eqs _ _ = false |- _ => rewrite H; clear H end. reflexivity.
  - destruct (Nat.eqb_spec (binlevel o) n) as [E|E]; auto. exfalso.
    assert (n <> 0) by (intros Hz; rewrite Hz in L; discriminate).
    rewrite (lvl_bin_inv o n) in F; auto. lia.
Qed.

Lemma post_part_stop n t r : follow n r -> post_part n t r (t, r).
Proof. intros F. unfold post_part. destruct (isloop n) eqn:E; auto. apply loop_stop; auto. Qed.

(** the first token *)
Definition starts_ok (n : nat) (w : list tok) : Prop :=
  match w with
  | TP o :: _ => eqs o (codes "(") = true \/ (3 <= n /\ unop o = true)
  | [] => False
  | _ => True
  end.
Lemma starts_ok_app n w v : starts_ok n w -> starts_ok n (w ++ v).
Proof. destruct w; cbn; auto; tauto. Qed.
Lemma starts_ok_le n m w : n <= m -> starts_ok n w -> starts_ok m w.
Proof. destruct w as [|[]]; cbn; auto. intros H [A|A]; auto. right. split; [lia|tauto]. Qed.

Scheme G_mind := Induction for G Sort Prop
  with Ga_mind := Induction for Gargs Sort Prop.
Combined Scheme G_Ga_ind from G_mind, Ga_mind.

Lemma G_starts_all :
  (forall n w t, G n w t -> starts_ok n w) /\ (forall w ts, Gargs w ts -> starts_ok 15 w).
Proof.
  apply G_Ga_ind; intros; cbn -[Nat.leb]; try apply starts_ok_app; auto; try exact I.
  - eapply starts_ok_le; [|eassumption]. lia.
  - eapply starts_ok_le; [|eassumption]. lia.
Qed.
Lemma G_starts n w t : G n w t -> starts_ok n w.
Proof. apply (proj1 G_starts_all). Qed.

Lemma unop_paren : unop (codes "(") = false. Proof. reflexivity. Qed.

Lemma not_close w s r : starts_ok 15 w -> eqs (codes s) (codes "(") = false -> unop (codes s) = false ->
  is s (w ++ r) = None.
Proof.
  intros H A B. destruct w as [|[x|v|o] w]; cbn in *; auto; [contradiction|].
  destruct (eqs o (codes s)) eqn:E; auto. apply eqs_eq in E. subst o.
  destruct H as [H|[_ H]]; congruence.
Qed.

Lemma is_P s r : is s (P s :: r) = Some r.
Proof. cbn. rewrite eqs_refl. reflexivity. Qed.

Ltac fuelS f := destruct f as [|f]; [lia|].

Definition parse_ok (n : nat) (w : list tok) (t : ctree) : Prop :=
  forall r q, follow (n - 1) r -> post_part n t r q -> ev (fun f => par f n (w ++ r)) q.

Lemma parse_ok_stop n w t : parse_ok n w t -> forall r, follow n r -> ev (fun f => par f n (w ++ r)) (t, r).
Proof. intros H r F. apply H; [eapply follow_le; [|exact F]; lia|]. apply post_part_stop. exact F. Qed.

Lemma par_S m f w : isloop (S m) = true -> par (S f) (S m) w = let! (t, r) := par f m w in loop f (S m) t r.
Proof.
  intros H. do 15 (destruct m as [|m]; [cbn in H |- *; try discriminate; reflexivity|]).
  cbn in H. discriminate.
Qed.

Lemma parse_up n w t : G n w t -> parse_ok n w t -> n < 15 -> parse_ok (S n) w t.
Proof.
  intros HG H Hn r q F Hq. replace (S n - 1) with n in F by lia.
  destruct (parse_ok_stop _ _ _ H r F) as [N HN].
  unfold post_part in Hq. destruct (isloop (S n)) eqn:L.
  - destruct Hq as [M HM]. exists (S (N + M)). intros f Hf. fuelS f. rewrite par_S by exact L.
    rewrite HN by lia. apply HM. lia.
  - destruct Hq as [-> Fq]. exists (S N). intros f Hf. fuelS f.
    assert (Hc : n = 0 \/ n = 2 \/ n = 3 \/ n = 14).
    { unfold isloop in L. apply orb_false_iff in L as [L1 L2]. apply Nat.eqb_neq in L1.
      apply andb_false_iff in L2 as [L2|L2]; apply Nat.leb_gt in L2; lia. }
    destruct Hc as [-> | [-> | [-> | ->]]]; cbn [par].
    + apply HN. lia.
    + pose proof (G_starts _ _ _ HG) as St.
      destruct w as [|[x|v|o] w]; cbn [app] in *; try (apply HN; lia).
      * cbn in St. contradiction.
      * cbn [starts_ok] in St. destruct St as [St|[St _]]; [|lia]. apply eqs_eq in St. subst o.
        rewrite unop_paren. apply HN. lia.
    + apply HN. lia.
    + rewrite HN by lia. destruct r as [|[x|v|o] r]; cbn [is]; auto.
      destruct (eqs o (codes "?")) eqn:E; auto. apply eqs_eq in E. subst o. cbn [follow] in Fq. apply Nat.ltb_lt in Fq. vm_compute in Fq. discriminate.
Qed.

Lemma follow_P s n r : n < lvl (codes s) -> follow n (P s :: r).
Proof. exact (fun H => H). Qed.

Lemma app_cons_assoc {A} (w : list A) x v r : (w ++ x :: v) ++ r = w ++ x :: (v ++ r).
Proof. rewrite <- app_assoc. reflexivity. Qed.

Ltac fol := apply Nat.ltb_lt; vm_compute; reflexivity.

Lemma parse_all :
  (forall n w t, G n w t -> parse_ok n w t) /\
  (forall w ts, Gargs w ts -> forall r, follow 15 r -> is "," r = None -> ev (fun f => pargs f (w ++ r)) (ts, r)).
Proof.
  apply G_Ga_ind.
  - intros x r q F Hq. destruct Hq as [-> _]. exists 1. intros f Hf. fuelS f. reflexivity.
  - intros x r q F Hq. destruct Hq as [-> _]. exists 1. intros f Hf. fuelS f. reflexivity.
  - intros w t HG IH r q F Hq. destruct Hq as [-> _].
    destruct (parse_ok_stop _ _ _ IH (P ")" :: r)) as [N HN]; [fol|].
    exists (S N). intros f Hf. fuelS f. cbn [par app P]. rewrite eqs_refl, <- app_assoc. cbn [app].
    rewrite HN by lia. rewrite is_P. reflexivity.
  - intros w f0 HG IH r q F Hq. cbn [Nat.sub] in *. rewrite <- app_assoc. apply IH; [fol|].
    destruct Hq as [N HN]. exists (S N). intros f Hf. fuelS f. cbn [loop app P Nat.eqb]. rewrite eqs_refl.
    change (TP (codes ")")) with (P ")"). rewrite is_P. apply HN. lia.
  - intros w f0 a ts HG IH HA IHa r q F Hq. cbn [Nat.sub] in *. rewrite app_cons_assoc. apply IH; [fol|].
    destruct (IHa (P ")" :: r)) as [M HM]; [fol|reflexivity|].
    destruct Hq as [N HN]. exists (S (N + M)). intros f Hf. fuelS f. cbn [loop P Nat.eqb]. rewrite eqs_refl.
    rewrite <- app_assoc. cbn [app].
    rewrite not_close by (first [reflexivity | apply (proj2 G_starts_all) in HA; exact HA]).
    rewrite HM by lia. rewrite is_P. apply HN. lia.
  - intros w t v i HG IH HI IHi r q F Hq. cbn [Nat.sub] in *. rewrite app_cons_assoc. apply IH; [fol|].
    destruct (parse_ok_stop _ _ _ IHi (P "]" :: r)) as [M HM]; [fol|].
    destruct Hq as [N HN]. exists (S (N + M)). intros f Hf. fuelS f. cbn [loop P Nat.eqb].
    rewrite <- app_assoc. cbn [app].
    replace (eqs (codes "[") (codes "(")) with false by reflexivity. rewrite eqs_refl.
    rewrite HM by lia. rewrite is_P. apply HN. lia.
  - intros w t o x HG IH Ho r q F Hq. cbn [Nat.sub] in *. rewrite <- app_assoc. cbn [app].
    assert (Hc : exists s, In s ["."; "->"] /\ o = codes s) by (apply oneof_in; exact Ho).
    apply IH.
    + destruct Hc as (s & I & ->). cbn [In] in I. destruct I as [<-|[<-|[]]]; fol.
    + destruct Hq as [N HN]. exists (S N). intros f Hf. fuelS f. cbn [loop Nat.eqb]. rewrite Ho.
      destruct (eqs o (codes "(")) eqn:E1.
      { apply eqs_eq in E1. subst o. discriminate. }
      destruct (eqs o (codes "[")) eqn:E2.
      { apply eqs_eq in E2. subst o. discriminate. }
      apply HN. lia.
  - intros w t o HG IH Ho r q F Hq. cbn [Nat.sub] in *. rewrite <- app_assoc. cbn [app].
    assert (Hc : exists s, In s ["++"; "--"] /\ o = codes s) by (apply oneof_in; exact Ho).
    destruct Hc as (s & I & Es). apply IH.
    + subst o. cbn [In] in I. destruct I as [<-|[<-|[]]]; fol.
    + destruct Hq as [N HN]. exists (S N). intros f Hf. fuelS f. cbn [loop Nat.eqb].
      subst o. cbn [In] in I. destruct I as [<-|[<-|[]]];
      (match goal with |- context [eqs ?a (codes "(")] => replace (eqs a (codes "(")) with false by reflexivity end;
       match goal with |- context [eqs ?a (codes "[")] => replace (eqs a (codes "[")) with false by reflexivity end;
       match goal with |- context [memop ?a] => replace (memop a) with false by reflexivity end;
       rewrite Ho; apply HN; lia).
  - intros o w t Ho HG IH r q F Hq. destruct Hq as [-> F3].
    destruct (parse_ok_stop _ _ _ IH r F3) as [N HN]. exists (S N). intros f Hf. fuelS f. cbn [par app].
    rewrite Ho, HN by lia. reflexivity.
  - intros n o w1 t1 w2 t2 Ho HG1 IH1 HG2 IH2 r q F Hq. replace (S n - 1) with n in F by lia.
    destruct (binlevel_cases o) as [Hb|Hb]; [lia|].
    assert (L : isloop (S n) = true).
    { unfold isloop. apply orb_true_iff. right. apply andb_true_iff. split; apply Nat.leb_le; lia. }
    rewrite app_cons_assoc. apply IH1.
    + cbn [follow]. rewrite (lvl_bin_inv o (S n)); [lia|exact Ho|lia].
    + unfold post_part in *. rewrite L in *. destruct Hq as [N HN].
      destruct (parse_ok_stop _ _ _ IH2 r F) as [M HM].
      exists (S (N + M)). intros f Hf. fuelS f. cbn [loop].
      destruct (Nat.eqb_spec (S n) 2); [lia|]. rewrite Ho, Nat.eqb_refl.
      replace (S n - 1) with n by lia. rewrite HM by lia. apply HN. lia.
  - intros w1 t1 w2 t2 w3 t3 HG1 IH1 HG2 IH2 HG3 IH3 r q F Hq. destruct Hq as [-> F15].
    rewrite app_cons_assoc, app_cons_assoc.
    destruct (parse_ok_stop _ _ _ IH1 (P "?" :: w2 ++ P ":" :: w3 ++ r)) as [N1 H1]; [fol|].
    destruct (parse_ok_stop _ _ _ IH2 (P ":" :: w3 ++ r)) as [N2 H2]; [fol|].
    destruct (parse_ok_stop _ _ _ IH3 r F15) as [N3 H3].
    exists (S (N1 + N2 + N3)). intros f Hf. fuelS f. cbn [par]. rewrite H1 by lia. rewrite is_P.
    rewrite H2 by lia. rewrite is_P. rewrite H3 by lia. reflexivity.
  - intros n w t HG IH Hn. apply parse_up; auto.
  - intros w t HG IH r F Hr. destruct (parse_ok_stop _ _ _ IH r F) as [N HN].
    exists (S N). intros f Hf. fuelS f. cbn [pargs]. rewrite HN by lia. rewrite Hr. reflexivity.
  - intros w t a ts HG IH HA IHa r F Hr. rewrite app_cons_assoc.
    destruct (parse_ok_stop _ _ _ IH (P "," :: a ++ r)) as [N HN]; [fol|].
    destruct (IHa r F Hr) as [M HM].
    exists (S (N + M)). intros f Hf. fuelS f. cbn [pargs]. rewrite HN by lia. rewrite is_P, HM by lia. reflexivity.
Qed.

(** every derivation is found by the parser, with any sufficient fuel *)
Lemma G_par n w t : G n w t -> ev (fun f => par f n w) (t, []).
Proof.
  intros H. destruct (parse_ok_stop _ _ _ (proj1 parse_all _ _ _ H) [] I) as [N HN].
  exists N. intros f Hf. rewrite <- (HN f Hf). rewrite app_nil_r. reflexivity.
Qed.

Lemma G_unique n w t t' : G n w t -> G n w t' -> t = t'.
Proof.
  intros H H'. destruct (G_par _ _ _ H) as [N HN]. destruct (G_par _ _ _ H') as [N' HN'].
  specialize (HN (N + N')). specialize (HN' (N + N')). rewrite HN in HN' by lia.
  specialize (HN' ltac:(lia)). congruence.
Qed.

Lemma reads_as_unique s t t' : reads_as s t -> reads_as s t' -> t = t'.
Proof. intros (w & E & H) (w' & E' & H'). assert (w' = w) by congruence. subst w'. eapply G_unique; eauto. Qed.

Lemma G_mono n m w t : G n w t -> n <= m <= 15 -> G m w t.
Proof.
  intros H [L U]. induction L as [|m L IH]; [exact H|]. apply G_up; [apply IH; lia|lia].
Qed.

(** a failing parse excludes every derivation; a successful one is the only
    candidate *)
Lemma reads_as_par s w t : lex s = Some w -> reads_as s t -> exists N, forall f, N <= f -> par f 15 w = Some (t, []).
Proof. intros E (w' & E' & H). assert (w' = w) by congruence. subst w'. apply G_par in H. exact H. Qed.

(** the parser only finds derivations *)
Lemma is_inv s w r : is s w = Some r -> w = P s :: r.
Proof.
  destruct w as [|[x|v|o] w]; cbn; try discriminate. destruct (eqs o (codes s)) eqn:E; [|discriminate].
  apply eqs_eq in E. subst o. intros H. injection H as ->. reflexivity.
Qed.

Lemma isloop_bin n : isloop (S n) = true -> S n <> 2 -> 5 <= S n <= 14.
Proof.
  unfold isloop. intros H N. apply orb_true_iff in H as [H|H]; [apply Nat.eqb_eq in H; lia|].
  apply andb_true_iff in H as [H1 H2]. apply Nat.leb_le in H1, H2. lia.
Qed.

Lemma par_sound_all f :
  (forall n w t r, par f n w = Some (t, r) -> n <= 15 -> exists w', w = w' ++ r /\ G n w' t) /\
  (forall n t w t' r, loop f n t w = Some (t', r) -> isloop n = true -> forall v, G n v t -> exists w', w = w' ++ r /\ G n (v ++ w') t') /\
  (forall w ts r, pargs f w = Some (ts, r) -> exists w', w = w' ++ r /\ Gargs w' ts).
Proof.
  induction f as [|f (IHp & IHl & IHa)]; [split; [|split]; intros; discriminate|]. split; [|split].
  - intros n w t r H Hn.
    assert (HL : isloop n = true -> exists w', w = w' ++ r /\ G n w' t).
    { intros L. destruct n as [|m]; [discriminate|]. rewrite par_S in H by exact L.
      destruct (par f m w) as [[t0 r0]|] eqn:E; [|discriminate].
      destruct (IHp _ _ _ _ E ltac:(lia)) as (w1 & -> & G1).
      destruct (IHl _ _ _ _ _ H L w1) as (w2 & -> & G2); [apply G_up; [exact G1|lia]|].
      exists (w1 ++ w2). split; [apply app_assoc|exact G2]. }
    destruct (isloop n) eqn:L; [apply HL; reflexivity|].
    assert (Hc : n = 0 \/ n = 1 \/ n = 3 \/ n = 4 \/ n = 15).
    { unfold isloop in L. apply orb_false_iff in L as [L1 L2]. apply Nat.eqb_neq in L1.
      apply andb_false_iff in L2 as [L2|L2]; apply Nat.leb_gt in L2; lia. }
    clear HL L Hn. destruct Hc as [-> | [-> | [-> | [-> | ->]]]].
    + cbn [par] in H. destruct w as [|[x|v|o] w]; [discriminate| | |].
      * injection H as <- <-. exists [TId x]. split; [reflexivity|constructor].
      * injection H as <- <-. exists [TNum v]. split; [reflexivity|constructor].
      * destruct (eqs o (codes "(")) eqn:E; [|discriminate]. apply eqs_eq in E. subst o.
        destruct (par f 15 w) as [[t0 r0]|] eqn:E; [|discriminate].
        destruct (is ")" r0) as [r1|] eqn:Ei; [|discriminate]. apply is_inv in Ei. subst r0. injection H as <- <-.
        destruct (IHp _ _ _ _ E ltac:(lia)) as (w1 & -> & G1).
        exists (P "(" :: w1 ++ [P ")"]). split; [cbn; rewrite <- app_assoc; reflexivity|]. apply G_paren. exact G1.
    + cbn [par] in H. destruct (IHp _ _ _ _ H ltac:(lia)) as (w1 & -> & G1). exists w1. split; [reflexivity|].
      apply G_up; [exact G1|lia].
    + assert (HU : par f 2 w = Some (t, r) -> exists w', w = w' ++ r /\ G 3 w' t).
      { intros H'. destruct (IHp _ _ _ _ H' ltac:(lia)) as (w1 & -> & G1). exists w1. split; [reflexivity|].
        apply G_up; [exact G1|lia]. }
      cbn [par] in H. destruct w as [|[x|v|o] w]; try (apply HU; exact H).
      destruct (unop o) eqn:U; [|apply HU; exact H]. destruct (par f 3 w) as [[t0 r0]|] eqn:E; [|discriminate].
      injection H as <- <-. destruct (IHp _ _ _ _ E ltac:(lia)) as (w1 & -> & G1). exists (TP o :: w1).
      split; [reflexivity|]. apply G_un; auto.
    + cbn [par] in H. destruct (IHp _ _ _ _ H ltac:(lia)) as (w1 & -> & G1). exists w1. split; [reflexivity|].
      apply G_up; [exact G1|lia].
    + cbn [par] in H. destruct (par f 14 w) as [[c r0]|] eqn:E; [|discriminate].
      destruct (IHp _ _ _ _ E ltac:(lia)) as (w1 & -> & G1).
      destruct (is "?" r0) as [r1|] eqn:Ei.
      * apply is_inv in Ei. subst r0. destruct (par f 15 r1) as [[a r2]|] eqn:E2; [|discriminate].
        destruct (IHp _ _ _ _ E2 ltac:(lia)) as (w2 & -> & G2).
        destruct (is ":" r2) as [r3|] eqn:Ei2; [|discriminate]. apply is_inv in Ei2. subst r2.
        destruct (par f 15 r3) as [[b r4]|] eqn:E3; [|discriminate]. injection H as <- <-.
        destruct (IHp _ _ _ _ E3 ltac:(lia)) as (w3 & -> & G3).
        exists (w1 ++ P "?" :: w2 ++ P ":" :: w3). split; [rewrite app_cons_assoc, app_cons_assoc; reflexivity|].
        apply G_cond; auto.
      * injection H as <- <-. exists w1. split; [reflexivity|]. apply G_up; [exact G1|lia].
  - intros n t w t' r H L v Gv. cbn [loop] in H.
    assert (HS : Some (t, w) = Some (t', r) -> exists w', w = w' ++ r /\ G n (v ++ w') t').
    { intros E. injection E as <- <-. exists []. rewrite app_nil_r. auto. }
    destruct w as [|[x|y|o] w]; try (apply HS; exact H).
    assert (HR : forall u t1 w1, loop f n t1 w1 = Some (t', r) -> G n (v ++ u) t1 -> TP o :: w = u ++ w1 ->
                 exists w', TP o :: w = w' ++ r /\ G n (v ++ w') t').
    { intros u t1 w1 E G1 Ew. destruct (IHl _ _ _ _ _ E L _ G1) as (w' & -> & G2). exists (u ++ w').
      split; [rewrite Ew; apply app_assoc|]. rewrite app_assoc. exact G2. }
    destruct (Nat.eqb_spec n 2) as [->|Hn].
    + destruct (eqs o (codes "(")) eqn:E1.
      { apply eqs_eq in E1. subst o. destruct (is ")" w) as [w0|] eqn:Ei.
        - apply is_inv in Ei. subst w. eapply (HR [P "("; P ")"]); [exact H|apply G_call0; exact Gv|reflexivity].
        - destruct (pargs f w) as [[ts r0]|] eqn:E; [|discriminate]. destruct (is ")" r0) as [r1|] eqn:Ei2; [|discriminate].
          apply is_inv in Ei2. subst r0. destruct (IHa _ _ _ E) as (wa & -> & Ga).
          eapply (HR (P "(" :: wa ++ [P ")"])); [exact H|apply G_call; auto|].
          cbn. rewrite <- app_assoc. reflexivity. }
      destruct (eqs o (codes "[")) eqn:E2.
      { apply eqs_eq in E2. subst o. destruct (par f 15 w) as [[i r0]|] eqn:E; [|discriminate].
        destruct (is "]" r0) as [r1|] eqn:Ei2; [|discriminate].
        apply is_inv in Ei2. subst r0. destruct (IHp _ _ _ _ E ltac:(lia)) as (wa & -> & Ga).
        eapply (HR (P "[" :: wa ++ [P "]"])); [exact H|apply G_index; auto|].
        cbn. rewrite <- app_assoc. reflexivity. }
      destruct (memop o) eqn:E3.
      { destruct w as [|[x|y|o'] w]; try discriminate.
        eapply (HR [TP o; TId x]); [exact H|apply G_member; auto|reflexivity]. }
      destruct (postop o) eqn:E4; [|apply HS; exact H].
      eapply (HR [TP o]); [exact H|apply G_post; auto|reflexivity].
    + destruct (Nat.eqb_spec (binlevel o) n) as [E|E]; [|apply HS; exact H].
      destruct (par f (n - 1) w) as [[b r0]|] eqn:Ep; [|discriminate].
      destruct n as [|n]; [discriminate|]. pose proof (isloop_bin n L Hn). replace (S n - 1) with n in Ep by lia.
      destruct (IHp _ _ _ _ Ep ltac:(lia)) as (wb & -> & Gb).
      eapply (HR (TP o :: wb)); [exact H|apply G_bin; auto|reflexivity].
  - intros w ts r H. cbn [pargs] in H. destruct (par f 15 w) as [[t r0]|] eqn:E; [|discriminate].
    destruct (IHp _ _ _ _ E ltac:(lia)) as (w1 & -> & G1). destruct (is "," r0) as [r1|] eqn:Ei.
    + apply is_inv in Ei. subst r0. destruct (pargs f r1) as [[ts' r2]|] eqn:E2; [|discriminate].
      injection H as <- <-. destruct (IHa _ _ _ E2) as (w2 & -> & G2).
      exists (w1 ++ P "," :: w2). split; [rewrite app_cons_assoc; reflexivity|]. apply Ga_more; auto.
    + injection H as <- <-. exists w1. split; [reflexivity|]. constructor. exact G1.
Qed.
Lemma par_sound f w t r : par f 15 w = Some (t, r) -> exists w', w = w' ++ r /\ G 15 w' t.
Proof. intros H. apply (proj1 (par_sound_all f) _ _ _ _ H). lia. Qed.
