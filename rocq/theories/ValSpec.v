(** Specification of isl_val: the extended rationals. *)
From Coq Require Import ZArith QArith Qround Bool.
From Verif Require Import ValModel.
Open Scope Z_scope.

Inductive ext := ENan | EInf (pos : bool) | EFin (q : Q).

(** [means v e]: [v] is the canonical representation of [e] *)
Definition means (v : val) (e : ext) : Prop :=
  match e with
  | ENan => vn v = 0 /\ vd v = 0
  | EInf true => vn v = 1 /\ vd v = 0
  | EInf false => vn v = -1 /\ vd v = 0
  | EFin q => 0 < vd v /\ Z.gcd (vn v) (vd v) = 1 /\
              vn v * Zpos (Qden q) = Qnum q * vd v
  end.
Definition canonical (v : val) : Prop := exists e, means v e.

(** equality of extended rationals *)
Definition ext_eq (a b : ext) : Prop :=
  match a, b with
  | ENan, ENan => True
  | EInf s, EInf t => s = t
  | EFin p, EFin q => (p == q)%Q
  | _, _ => False
  end.

Definition eneg (a : ext) : ext :=
  match a with ENan => ENan | EInf s => EInf (negb s) | EFin q => EFin (- q) end.
Definition eadd (a b : ext) : ext :=
  match a, b with
  | ENan, _ | _, ENan => ENan
  | EInf s, EInf t => if Bool.eqb s t then EInf s else ENan
  | EInf s, _ | _, EInf s => EInf s
  | EFin p, EFin q => EFin (p + q)
  end.
Definition esub (a b : ext) : ext := eadd a (eneg b).
(** sign of a finite number times an infinity *)
Definition einf_times (s : bool) (q : Q) : ext :=
  match (q ?= 0)%Q with Eq => ENan | Gt => EInf s | Lt => EInf (negb s) end.
Definition emul (a b : ext) : ext :=
  match a, b with
  | ENan, _ | _, ENan => ENan
  | EInf s, EInf t => EInf (Bool.eqb s t)
  | EInf s, EFin q | EFin q, EInf s => einf_times s q
  | EFin p, EFin q => EFin (p * q)
  end.
Definition einv (a : ext) : ext :=
  match a with
  | ENan => ENan
  | EInf _ => EFin 0
  | EFin q => if Qeq_bool q 0 then ENan else EFin (/ q)
  end.
(** division: multiplication by the inverse, except that 0/oo = 0 and the
    quotient of two infinities is undefined *)
Definition ediv (a b : ext) : ext :=
  match a, b with
  | ENan, _ | _, ENan => ENan
  | EInf _, EInf _ => ENan
  | _, EFin q => if Qeq_bool q 0 then ENan else emul a (EFin (/ q))
  | EFin _, EInf _ => EFin 0
  end.
Definition ele (a b : ext) : bool :=
  match a, b with
  | ENan, _ | _, ENan => false
  | EInf false, _ | _, EInf true => true
  | _, EInf false | EInf true, _ => false
  | EFin p, EFin q => Qle_bool p q
  end.
Definition eeq (a b : ext) : bool := ele a b && ele b a.
Definition elt (a b : ext) : bool := ele a b && negb (ele b a).
Definition eabs (a : ext) : ext := if ele a (EFin 0) then eneg a else a.
Definition emin (a b : ext) : ext :=
  match a, b with ENan, _ | _, ENan => ENan | _, _ => if ele a b then a else b end.
Definition emax (a b : ext) : ext :=
  match a, b with ENan, _ | _, ENan => ENan | _, _ => if ele a b then b else a end.
Definition efloor (a : ext) : ext :=
  match a with EFin q => EFin (inject_Z (Qfloor q)) | _ => a end.
Definition eceil (a : ext) : ext :=
  match a with EFin q => EFin (inject_Z (Qceiling q)) | _ => a end.
Definition etrunc (a : ext) : ext :=
  match a with
  | EFin q => EFin (inject_Z (if Qle_bool 0 q then Qfloor q else Qceiling q))
  | _ => a
  end.
Definition eint (c : Z) : ext := EFin (inject_Z c).

Fixpoint eeval (e : vexp) : ext :=
  match e with
  | VInt i => eint i
  | VRat n d => ediv (eint n) (eint d)
  | VNan => ENan | VInf => EInf true | VNegInf => EInf false
  | VNeg e => eneg (eeval e) | VInv e => einv (eeval e)
  | VAbs e => eabs (eeval e) | VFloor e => efloor (eeval e)
  | VCeil e => eceil (eeval e) | VTrunc e => etrunc (eeval e)
  | VMin a b => emin (eeval a) (eeval b)
  | VMax a b => emax (eeval a) (eeval b)
  | VAdd a b => eadd (eeval a) (eeval b)
  | VSub a b => esub (eeval a) (eeval b)
  | VMul a b => emul (eeval a) (eeval b)
  | VDiv a b => ediv (eeval a) (eeval b)
  | VAddUi e c => eadd (eeval e) (eint c)
  | VSubUi e c => esub (eeval e) (eint c)
  | VMulUi e c => emul (eeval e) (eint c)
  | VDivUi e c => ediv (eeval e) (eint c)
  end.

(** contracts: the denominator of an explicit rational is not zero, and the
    arguments of type unsigned long are non-negative *)
Fixpoint vexp_ok (e : vexp) : bool :=
  match e with
  | VInt _ | VNan | VInf | VNegInf => true
  | VRat _ d => negb (d =? 0)
  | VNeg e | VInv e | VAbs e | VFloor e | VCeil e | VTrunc e => vexp_ok e
  | VMin a b | VMax a b | VAdd a b | VSub a b | VMul a b | VDiv a b =>
      vexp_ok a && vexp_ok b
  | VAddUi e c | VSubUi e c | VMulUi e c | VDivUi e c =>
      vexp_ok e && (0 <=? c)
  end.
