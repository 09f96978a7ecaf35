(** Theorems and examples about parts of the model that earlier theorems left
    open (found by editing the model and seeing no proof fail). *)
From Coq Require Import ZArith List Bool Lia String.
From Verif Require Import SeqModel MatModel MatSpec BMapModel BMapSpec ListModel IdModel StreamModel ValModel TightProofs.
From Verif Require IntModel IntSpec.
Import ListNotations.
Open Scope list_scope.
Open Scope Z_scope.

(** C16: the conversion of the unsigned position to an int *)
Theorem C16_to_int u : 0 <= u < 2 ^ 32 -> - 2 ^ 31 <= to_int u < 2 ^ 31 /\ to_int u mod 2 ^ 32 = u.
Proof. exact (to_int_ok u). Qed.
Example C16_to_int_ex : to_int 4294967295 = -1 /\ to_int 5 = 5 /\ to_int 2147483648 = -2147483648.
Proof. repeat split; reflexivity. Qed.

(** C03: the bytes that isl_int_hash hashes are the bytes of the digit *)
Theorem C03_digit_bytes d : 0 <= d < 2 ^ 32 ->
  Forall (fun b => 0 <= b < 256) (IntModel.digit_bytes d) /\
  fold_right (fun b a => b + 256 * a) 0 (IntModel.digit_bytes d) = d.
Proof. exact (digit_bytes_ok d). Qed.
Example C03_digit_bytes_ex : IntModel.digit_bytes 305419896 = [120; 86; 52; 18].
Proof. reflexivity. Qed.
(** a big number that is zero has one bit *)
Example C03_sizeinbase_zero : IntModel.sizeinbase2 4 (fun a => if a =? 4 then Some 0 else None) = IntModel.Ok (1, fun a => if a =? 4 then Some 0 else None).
Proof. reflexivity. Qed.
(** C05: what isl_int_get_d computes on 2^32 + 5 (the digits in the wrong order) *)
Example C05_get_d_order : let h := fun a => if a =? 4 then Some (2 ^ 32 + 5) else None in
  IntModel.get_d 4 h = IntModel.Ok (5 * 2 ^ 32 + 1, h).
Proof. reflexivity. Qed.

(** C18: the bytes of a pointer that are hashed *)
Theorem C18_ptr_bytes n p : 0 <= p < 256 ^ Z.of_nat n ->
  List.length (ptr_bytes n p) = n /\ Forall (fun b => -128 <= b < 128) (ptr_bytes n p) /\
  fold_right (fun b a => b mod 256 + 256 * a) 0 (ptr_bytes n p) = p.
Proof. exact (ptr_bytes_ok n p). Qed.
Example C18_ptr_bytes_ex : ptr_bytes 8 140737488355328 = [0; 0; 0; 0; 0; -128; 0; 0] /\ 0 <= 140737488355328 < 256 ^ Z.of_nat 8.
Proof. split; [reflexivity|]. split; [discriminate|reflexivity]. Qed.
(** published test values of the 32 bit Fowler/Noll/Vo hash FNV-1 *)
Example C18_fnv_a : hash_chars hash_init (codes "a") = 84696446.
Proof. reflexivity. Qed.
Example C18_fnv_foobar : hash_chars hash_init (codes "foobar") = 837857890.
Proof. reflexivity. Qed.

(** C10: tokens *)
Example C10_keywords : check_keywords (codes "FALSE") = TKeyword "false" /\ check_keywords (codes "InFiNiTy") = TInfty /\
  check_keywords (codes "nan") = TNan /\ check_keywords (codes "true") = TKeyword "true" /\
  check_keywords (codes "xor") = TIdent (codes "xor").
Proof. repeat split; reflexivity. Qed.
Definition token_list (s : string) : option (list token) :=
  (fix go fuel st := match fuel with
    | O => None
    | S f => match stream_next_token st with
             | Some (Some t, st') => match go f st' with Some l => Some (t :: l) | None => None end
             | Some (None, _) => Some []
             | None => None
             end
    end) 60%nat (stream_new_str (codes s)).
Example C10_tokens : token_list "x || y | z && 7 -> -8 - a" =
  Some [TIdent (codes "x"); TKeyword "or"; TIdent (codes "y"); TKeyword "or"; TIdent (codes "z"); TKeyword "and"; TVal 7; TOp "->";
        TVal (-8); TChar 45; TIdent (codes "a")].
Proof. vm_compute. reflexivity. Qed.
Example C10_tokens2 : token_list "a' >= b >> c >>= d := e <= f < g << h <<= != ! / // /\ \/ == = ~"  =
  Some [TIdent (codes "a'"); TOp ">="; TIdent (codes "b"); TOp ">>"; TIdent (codes "c"); TOp ">>="; TIdent (codes "d"); TOp ":=";
        TIdent (codes "e"); TOp "<="; TIdent (codes "f"); TOp "<"; TIdent (codes "g"); TOp "<<"; TIdent (codes "h"); TOp "<<=";
        TOp "!="; TKeyword "not"; TChar 47; TOp "//"; TKeyword "and"; TKeyword "or"; TOp "=="; TChar 61; TUnknown].
Proof. vm_compute. reflexivity. Qed.
(** a comment that is not ended by a newline is not skipped but turns into an
    unknown token: the loop in next_token stops with c == '#' *)
Example C10_comment_at_eof : token_list "a # b" = Some [TIdent (codes "a"); TUnknown].
Proof. vm_compute. reflexivity. Qed.
Example C10_spaces : val_read_from_str [9; 32; 10; 13; 11; 12; 55] = Some (Some (v_int 7)).
Proof. vm_compute. reflexivity. Qed.
Example C10_powers : val_read_from_str (codes "2^0") = Some (Some (v_int 1)) /\ val_read_from_str (codes "3^4/2^1") = Some (Some (mkv 81 2)).
Proof. vm_compute. split; reflexivity. Qed.

(** C22: a singular matrix is rejected *)
Example C22_inverse_product_singular : inverse_product 1 1 [[0]] [[1]] = Null /\ inverse_product 2 1 [[1; 2]; [2; 4]] [[1]; [1]] = Null.
Proof. vm_compute. split; reflexivity. Qed.

(** C23: marking a basic map as empty *)
Theorem C23_set_to_empty b :
  b_empty (set_to_empty b) = true /\ b_ineq (set_to_empty b) = [] /\ (List.length (b_eq (set_to_empty b)) <= 1)%nat /\
  (b_empty b = true -> b_eq b = [] -> b_ineq b = [] -> set_to_empty b = b) /\
  (b_eq b ++ b_ineq b <> [] \/ b_empty b = false ->
   b_eq (set_to_empty b) = [1 :: repeat 0 (nvar b)] /\ b_div (set_to_empty b) = []).
Proof. exact (set_to_empty_ok b). Qed.
Example C23_set_to_empty_ex : set_to_empty (mkb 0 0 2 [] [] [] false true false) = mkb 0 0 2 [] [] [] false true false /\
  set_to_empty (mkb 0 0 2 [[1; 0; 0]] [[1; 2; 3]] [] false true false) = mkb 0 0 2 [[1; 0; 0]] [] [] false true false.
Proof. split; reflexivity. Qed.

(** C23: when Gaussian elimination reports no progress, nothing but the
    equalities has changed *)
Theorem C23_no_progress b b' : gauss_ordered b = Ok (b', false) ->
  b_empty b' = true \/
  (b_ineq b', b_div b', b_param b', b_in b', b_out b', b_rat b', b_empty b') =
  (b_ineq b, b_div b, b_param b, b_in b, b_out b, b_rat b, b_empty b).
Proof. exact (gauss_no_progress b b'). Qed.
Example C23_no_progress_ex :
  gauss_ordered (mkb 0 0 3 [[1; 2; 0; 0]; [1; 0; 0; -1]] [[5; 0; 1; 0]] [] false false false) =
  Ok (mkb 0 0 3 [[-1; 0; 0; 1]; [1; 2; 0; 0]] [[5; 0; 1; 0]] [] false false false, false).
Proof. vm_compute. reflexivity. Qed.
(** progress is reported for a change of an equality, an inequality or the
    definition of an integer division *)
Example C23_progress_ex :
  (exists b, gauss_ordered (mkb 0 0 2 [[1; 2; 0]; [1; 1; -1]] [] [] false false false) = Ok (b, true)) /\
  (exists b, gauss_ordered (mkb 0 0 2 [[1; 1; -1]] [[5; 0; 1]] [] false false false) = Ok (b, true)) /\
  (exists b, gauss_ordered (mkb 0 0 2 [[1; 1; -1; 0]] [] [[2; 0; 0; 1; 0]] false false false) = Ok (b, true)).
Proof. repeat split; eexists; vm_compute; reflexivity. Qed.

(** C23: the definition that an equality gives to an integer division involves
    no integer division that is not known itself *)
Theorem C23_set_div_known b div eq b' : (div < ndiv b)%nat ->
  set_div_from_eq b div eq = (b', true) ->
  forall i, (i < div)%nat -> nth (2 + nvar b + i) (nth div (b_div b') []) 0 <> 0 -> hd 0 (nth i (b_div b) []) <> 0.
Proof. exact (set_div_from_eq_known b div eq b'). Qed.
Example C23_set_div_known_ex :
  set_div_from_eq (mkb 0 0 1 [[3; 1; 5; 2]] [] [[0; 0; 0; 0; 0]; [0; 0; 0; 0; 0]] false false false) 1 0 =
  (mkb 0 0 1 [[3; 1; 5; 2]] [] [[0; 0; 0; 0; 0]; [0; 0; 0; 0; 0]] false false false, false) /\
  set_div_from_eq (mkb 0 0 1 [[3; 1; 5; 2]] [] [[7; 0; 1; 0; 0]; [0; 0; 0; 0; 0]] false false false) 1 0 =
  (mkb 0 0 1 [[3; 1; 5; 2]] [] [[7; 0; 1; 0; 0]; [2; -3; -1; -5; 0]] false false false, true).
Proof. split; reflexivity. Qed.

Print Assumptions C16_to_int.
Print Assumptions C03_digit_bytes.
Print Assumptions C18_ptr_bytes.
Print Assumptions C23_set_to_empty.
Print Assumptions C23_no_progress.
Print Assumptions C23_set_div_known.
