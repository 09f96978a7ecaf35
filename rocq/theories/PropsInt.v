(** Properties C01-C05 of isl_int (small-integer-optimised representation). *)
From Coq Require Import ZArith List Bool Lia.
From Verif Require Import IntModel IntSpec IntProofs.
Import ListNotations.
Open Scope Z_scope.

(** ** C01, C02: every straight-line program of isl_int operations, with any
    aliasing of destination and operands, computes exactly the integers the
    specification [ispec_all] computes, never runs into undefined behaviour
    (overflow, division by zero, use after free, double free), and keeps the
    store well-formed (no shared and no leaked big numbers). *)
Theorem C01_int_programs_exact :
  forall alloc, alloc_spec alloc ->
  forall os h s env env',
    represents h s env ->
    forallb sub_ui_small os = true ->
    ispec_all os env = Some env' ->
    iexec_all alloc os s h = OOM \/
    exists s' h', iexec_all alloc os s h = Ok (s', h') /\ represents h' s' env'.
Proof. intros alloc Ha os h s env env'. exact (iexec_all_refines alloc Ha h s env os env'). Qed.
Print Assumptions C01_int_programs_exact.

Theorem C01_int_clear_no_leak :
  forall s h env, represents h s env ->
  exists h', clear_all s h = Ok (tt, h') /\ forall a, h' a = None.
Proof. exact clear_all_ok. Qed.
Print Assumptions C01_int_clear_no_leak.

(** ** C02: the three division roundings and the remainder, as single steps *)
Theorem C02_int_division_rounding :
  forall alloc, alloc_spec alloc ->
  forall h s env (r i j : nat),
    represents h s env ->
    (r < length s)%nat -> (i < length s)%nat -> (j < length s)%nat ->
    forall x y, nth i env 0 = x -> nth j env 0 = y -> y <> 0 ->
    forall o z,
      In (o, z) [(ITdivQ r i j, Z.quot x y); (IFdivQ r i j, x / y);
                 (ICdivQ r i j, - (- x / y)); (IFdivR r i j, x mod y)] ->
      iexec alloc o s h = OOM \/
      exists s' h', iexec alloc o s h = Ok (s', h') /\ represents h' s' (lset env r z).
Proof. exact division_steps. Qed.
Print Assumptions C02_int_division_rounding.

(** ** C03: observations depend only on the integer denoted, and are the
    mathematical functions they claim to be *)
Theorem C03_int_observations :
  forall h w1 w2 z1 z2, denotes h w1 z1 -> denotes h w2 z2 ->
    sgn w1 h = Ok (Z.sgn z1, h) /\
    cmp w1 w2 h = Ok (Z.sgn (z1 - z2), h) /\
    (forall c, cmp_si w1 c h = Ok (Z.sgn (z1 - c), h)) /\
    abs_cmp w1 w2 h = Ok (Z.sgn (Z.abs z1 - Z.abs z2), h) /\
    (exists b, is_divisible_by w1 w2 h = Ok (b, h) /\ (b = true <-> (z2 | z1))) /\
    fits_slong w1 h = Ok ((- 2 ^ 63 <=? z1) && (z1 <? 2 ^ 63), h) /\
    (- 2 ^ 63 <= z1 < 2 ^ 63 -> get_si w1 h = Ok (z1, h)) /\
    fits_ulong w1 h = Ok ((0 <=? z1) && (z1 <? 2 ^ 64), h) /\
    (0 <= z1 < 2 ^ 64 -> get_ui w1 h = Ok (z1, h)).
Proof. exact observations_ok. Qed.
Print Assumptions C03_int_observations.

Theorem C03_int_hash_representation_independent :
  forall h w h' w' z, denotes h w z -> denotes h' w' z ->
  forall h0, exists v, hash w h0 h = Ok (v, h) /\ hash w' h0 h' = Ok (v, h').
Proof. exact hash_indep. Qed.
Print Assumptions C03_int_hash_representation_independent.

(** ** C04: isl_int_sub_ui *)
Theorem C04_int_sub_ui_refuted :
  exists w c, denotes (fun _ => None) w 0 /\ 0 <= c < 2 ^ 64 /\
    exists d' h', sub_ui alloc0 init w c (fun _ => None) = Ok (d', h') /\
      denotes h' d' (2 ^ 63 - 1) /\ 0 - c <> 2 ^ 63 - 1.
Proof. exact sub_ui_refuted. Qed.
Print Assumptions C04_int_sub_ui_refuted.

(** exact for all subtrahends outside the faulty window (what is missing for
    C04 is precisely that window: a small left operand x with
    x - c < -2^63 and c < 2^63 + 2^31 - 1) *)
Theorem C04_int_sub_ui_partial :
  forall alloc, alloc_spec alloc ->
  forall h s env (r i : nat) c,
    represents h s env -> (r < length s)%nat -> (i < length s)%nat ->
    0 <= c < 2 ^ 64 ->
    (- 2 ^ 63 <= nth i env 0 - c \/ 2 ^ 63 + 2 ^ 31 - 1 <= c \/
     is_big (nth i s init) = true) ->
    iexec alloc (ISubUi r i c) s h = OOM \/
    exists s' h', iexec alloc (ISubUi r i c) s h = Ok (s', h') /\
                  represents h' s' (lset env r (nth i env 0 - c)).
Proof. exact sub_ui_step. Qed.
Print Assumptions C04_int_sub_ui_partial.

(** ** C05: isl_int_get_d *)
Theorem C05_int_get_d_refuted :
  exists h w, denotes h w (2 ^ 32) /\ get_d w h = Ok (1, h).
Proof. exact get_d_refuted. Qed.
Print Assumptions C05_int_get_d_refuted.

(** exact below 2^32 in absolute value (what is missing: larger numbers) *)
Theorem C05_int_get_d_partial :
  forall h w z, denotes h w z -> Z.abs z < 2 ^ 32 -> get_d w h = Ok (z, h).
Proof. exact get_d_small. Qed.
Print Assumptions C05_int_get_d_partial.

(** ** Examples: the hypotheses are met by concrete states *)
(** [alloc0] is a bump allocator over the addresses below 2*64 *)
Example alloc0_meets_spec : alloc_spec alloc0.
Proof. exact alloc0_spec. Qed.

Definition ex_h : heap := fun a => if a =? 2 then Some (2 ^ 40) else None.
Definition ex_s : vars := [encode_small (-7); 2; encode_small 2147483647].
Definition ex_env : list Z := [-7; 2 ^ 40; 2147483647].
Example ex_represents : represents ex_h ex_s ex_env.
Proof.
  constructor.
  - reflexivity.
  - intros [|[|[|i]]] Hi; cbn in Hi; try lia; vm_compute; auto.
    all: split; [reflexivity|split; reflexivity].
  - intros [|[|[|i]]] [|[|[|j]]] Hi Hj; cbn in Hi, Hj; try lia;
      vm_compute; try discriminate; try reflexivity.
  - intros a Ha. unfold ex_h in Ha. destruct (Z.eqb_spec a 2) as [E|E]; [rewrite E|congruence].
    exists 1%nat. cbn. split; [lia|]. split; reflexivity.
Qed.
Definition ex_prog : list iop :=
  [IMul 0 0 2; IAdd 1 1 0; IAddmul 1 2 2; IFdivQ 2 1 0; ISubUi 0 0 5; IGcd 1 1 1;
   ICdivQUi 0 0 3; IPowUi 2 2 3; ISwap 0 1; ITdivQ 1 2 0].
Example ex_prog_spec : exists env', ispec_all ex_prog ex_env = Some env'.
Proof. eexists. vm_compute. reflexivity. Qed.
Example ex_prog_small : forallb sub_ui_small ex_prog = true.
Proof. reflexivity. Qed.
Example ex_prog_runs : exists s' h', iexec_all alloc0 ex_prog ex_s ex_h = Ok (s', h').
Proof. eexists _, _. vm_compute. reflexivity. Qed.
Example ex_denotes_small_and_big :
  denotes ex_h (encode_small (-7)) (-7) /\ denotes (fun a => if a =? 4 then Some (-7) else None) 4 (-7).
Proof. vm_compute. auto. Qed.
