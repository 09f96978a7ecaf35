(** Model of reorderings of dimensions and the alignment of parameters:
    isl_reordering.c, isl_dim_map.c and their users in isl_space.c, isl_map.c,
    isl_vec.c, isl_local.c and isl_aff.c.

    Not modelled: reference counts, failure of allocations.  Writing to a
    position beyond the end of an array has no effect and reading from one gives
    zero; that the positions are inside the arrays is part of what is proved. *)
From Coq Require Import ZArith List Bool Arith.
From Verif Require Import SeqModel MatModel BMapModel SpaceModel.
Import ListNotations.
Open Scope nat_scope.

(** struct isl_reordering, isl_reordering.h:14-20; src_len is the length of
    [r_pos] *)
Record reordering := mkr { r_space : space; r_dst : nat; r_pos : list nat }.
Definition r_src (r : reordering) : nat := length (r_pos r).

(** the inner loop over j of isl_parameter_alignment_reordering,
    isl_reordering.c:170-176: the first parameter of the aligner, from [j] on,
    with the given identifier *)
Fixpoint find_param (aligner : space) (id : Z) (n j : nat) : option nat :=
  match n with
  | O => None
  | S n' => if opt_eqb (Some id) (get_id aligner Param j) then Some j else find_param aligner id n' (S j)
  end.
(** the outer loop over i, isl_reordering.c:163-192 *)
Fixpoint align_loop (alignee aligner sp : space) (n i : nat) : option (space * list nat) :=
  match n with
  | O => Some (sp, [])
  | S n' =>
    match get_id alignee Param i with
    | None => None
    | Some id =>
      match find_param aligner id (nparam aligner) 0 with
      | Some j =>
        do x <- align_loop alignee aligner sp n' (S i) ; Some (fst x, j :: snd x)
      | None =>
        let pos := nparam sp in
        do sp1 <- add_dims sp Param 1 ;
        do sp2 <- set_dim_id sp1 Param pos (Some id) ;
        do x <- align_loop alignee aligner sp2 n' (S i) ; Some (fst x, pos :: snd x)
      end
    end
  end.
(** isl_parameter_alignment_reordering, isl_reordering.c:144-206;
    isl_reordering_set_dst_len_from_space, isl_reordering.c:44-57; the offset
    dst_len - src_len may be negative in the code, the sum with i is not *)
Definition alignment (alignee aligner : space) : option reordering :=
  let dim := dim_all alignee in
  let n := nparam alignee in
  do sp <- replace_params alignee aligner ;
  do x <- align_loop alignee aligner sp n 0 ;
  let dst := dim_all (fst x) in
  Some (mkr (fst x) dst (snd x ++ map (fun i => dst + i - dim) (seq n (dim - n)))).

(** isl_reordering_extend, isl_reordering.c:280-311 *)
Definition extend (r : reordering) (extra : nat) : reordering :=
  if Nat.eqb extra 0 then r
  else
    mkr (r_space r) (r_dst r + extra) (r_pos r ++ map (fun i => r_dst r + i - r_src r) (seq (r_src r) extra)).
(** isl_reordering_extend_space, isl_reordering.c:313-343, for a space with at
    least as many dimensions as the source of the reordering *)
Definition extend_space (r : reordering) (sp : space) : option reordering :=
  let res := extend r (dim_all sp - r_src r) in
  do sp' <- replace_params sp (r_space r) ;
  Some (mkr sp' (r_dst res) (r_pos res)).

(** isl_space_has_named_params, isl_space.c:3225-3241 *)
Definition has_named_params (s : space) : bool :=
  if Nat.eqb (nparam s) 0 then true
  else if Nat.ltb (n_id s) (nparam s) then false
  else forallb (fun i => is_some (nth i (idl s) None)) (seq 0 (nparam s)).
(** isl_space_check_named_params, isl_space.c:3246-3258;
    isl_space_align_params, isl_space.c:3262-3281 *)
Definition align_params (s1 s2 : space) : option space :=
  if negb (has_named_params s1) then None
  else if negb (has_named_params s2) then None
  else do r <- alignment s1 s2 ; Some (r_space r).

(** struct isl_dim_map, isl_dim_map.c:17-27: for each destination the position
    of the source and the sign *)
Notation dim_map := (list (nat * Z)).
(** isl_dim_map_alloc, isl_dim_map.c:29-43 *)
Definition dm_alloc (len : nat) : dim_map := (0, 1%Z) :: repeat (0, 0%Z) len.
(** isl_dim_map_range, isl_dim_map.c:53-68 *)
Fixpoint dm_range (m : dim_map) (dst_pos dst_stride src_pos src_stride n i : nat) (sign : Z) : dim_map :=
  match n with
  | O => m
  | S n' => dm_range (lset m (1 + dst_pos + dst_stride * i) (1 + src_pos + src_stride * i, sign)) dst_pos dst_stride src_pos src_stride n' (S i) sign
  end.
(** the loop of isl_dim_map_from_reordering, isl_dim_map.c:243-246 *)
Fixpoint dm_set (m : dim_map) (pos : list nat) (i : nat) : dim_map :=
  match pos with
  | [] => m
  | p :: t => dm_set (lset m (1 + p) (1 + i, 1%Z)) t (S i)
  end.
(** isl_dim_map_from_reordering, isl_dim_map.c:225-252 *)
Definition dm_from (r : reordering) : dim_map := dm_set (dm_alloc (dim_all (r_space r))) (r_pos r) 0.
(** isl_dim_map_extend, isl_dim_map.c:195-219 *)
Definition dm_extend (m : dim_map) (b : bmap) : dim_map :=
  m ++ map (fun i => (1 + nvar b + i, 1%Z)) (seq 0 (ndiv b)).
(** copy_constraint_dim_map, isl_dim_map.c:123-136 *)
Definition copy_constraint (m : dim_map) (src : list Z) : list Z :=
  map (fun e => if Z.eqb (snd e) 0 then 0%Z else if Z.ltb 0 (snd e) then nth (fst e) src 0%Z else (- nth (fst e) src 0)%Z) m.
(** copy_div_dim_map, isl_dim_map.c:138-143 *)
Definition copy_div (m : dim_map) (src : list Z) : list Z := hd 0%Z src :: copy_constraint m (tl src).
(** isl_basic_map_add_constraints_dim_map, isl_dim_map.c:145-184 *)
Definition add_constraints (dst src : bmap) (m : dim_map) : bmap :=
  set_div (set_ineq (set_eq dst (b_eq dst ++ map (copy_constraint m) (b_eq src)))
    (b_ineq dst ++ map (copy_constraint m) (b_ineq src))) (b_div dst ++ map (copy_div m) (b_div src)).

(** a basic map with its space; the numbers of dimensions of the basic map are
    those of the space *)
Definition nbmap := (space * bmap)%type.
(** isl_basic_map_realign, isl_map.c:12400-12425, including
    isl_basic_map_alloc_space *)
Definition realign (b : bmap) (sp : space) (m : dim_map) : res nbmap :=
  let r := add_constraints (mkb (nparam sp) (n_in sp) (n_out sp) [] [] [] false false false) b m in
  let r := mkb (b_param r) (b_in r) (b_out r) (b_eq r) (b_ineq r) (b_div r) (b_rat b) (b_empty b) false in
  match gauss r with Ok (r, _) => Ok (sp, r) | Null => Null | UB => UB | Div => Div end.
(** isl_basic_map_align_params, isl_map.c:12517-12556 *)
Definition bmap_align_params (b : nbmap) (model : space) : res nbmap :=
  if negb (has_named_params model) then Null
  else if negb (has_named_params (fst b)) then Null
  else if has_equal_params (fst b) model then Ok b
  else match alignment (fst b) model with
       | None => Null
       | Some r => realign (snd b) (r_space r) (dm_extend (dm_from r) (snd b))
       end.

(** a map: its space and its basic maps *)
Definition nmap := (space * list bmap)%type.
(** the loop of isl_map_realign, isl_map.c:12440-12451 *)
Fixpoint map_realign_loop (l : list bmap) (r : reordering) : res (list bmap) :=
  match l with
  | [] => Ok []
  | b :: t =>
    match realign b (r_space r) (dm_extend (dm_from r) b) with
    | Ok (_, b') => match map_realign_loop t r with Ok t' => Ok (b' :: t') | x => x end
    | Null => Null | UB => UB | Div => Div
    end
  end.
(** isl_map_realign, isl_map.c:12430-12465 *)
Definition map_realign (m : nmap) (r : reordering) : res nmap :=
  match map_realign_loop (snd m) r with
  | Ok l => Ok (r_space r, l)
  | Null => Null | UB => UB | Div => Div
  end.
(** isl_map_align_params, isl_map.c:12473-12506 *)
Definition map_align_params (m : nmap) (model : space) : res nmap :=
  if negb (has_named_params model) then Null
  else if negb (has_named_params (fst m)) then Null
  else if has_equal_params (fst m) model then Ok m
  else match alignment (fst m) model with
       | None => Null
       | Some r => map_realign m r
       end.

(** the loop of isl_vec_reorder and isl_local_reorder *)
Fixpoint scatter (dst src : list Z) (pos : list nat) (i : nat) : list Z :=
  match pos with
  | [] => dst
  | p :: t => scatter (lset dst p (nth i src 0%Z)) src t (S i)
  end.
(** isl_vec_reorder, isl_vec.c:661-685 *)
Definition vec_reorder (v : list Z) (offset : nat) (r : reordering) : list Z :=
  firstn offset v ++ scatter (repeat 0%Z (r_dst r)) (skipn offset v) (r_pos r) 0.
(** isl_local_reorder, isl_local.c:263-294; a row of [div] has [n_col]
    elements *)
Definition local_reorder (div : list (list Z)) (n_col : nat) (r : reordering) : list (list Z) :=
  map (fun d => firstn 2 d ++ scatter (repeat 0%Z (n_col + r_dst r - r_src r - 2)) (skipn 2 d) (r_pos r) 0) div.

(** struct isl_aff, isl_aff_private.h:17-22, the space of the domain, the integer
    divisions of the domain and the row of denominator, constant term and
    coefficients *)
Record aff := mka { a_space : space; a_div : list (list Z); a_v : list Z }.
(** isl_aff_realign_domain, isl_aff.c:631-649, isl_local_space_realign,
    isl_local_space.c:633-646 *)
Definition aff_realign_domain (a : aff) (r : reordering) : aff :=
  let r := extend r (length (a_div a)) in
  mka (r_space r) (local_reorder (a_div a) (2 + dim_all (a_space a) + length (a_div a)) r) (vec_reorder (a_v a) 2 r).
(** isl_aff_align_params, isl_aff.c:651-674 *)
Definition aff_align_params (a : aff) (model : space) : option aff :=
  if has_equal_params (a_space a) model then Some a
  else do r <- alignment (a_space a) model ; Some (aff_realign_domain a r).
