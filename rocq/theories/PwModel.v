(** Model of piecewise quasi-affine expressions: isl_pw_templ.c as instantiated
    for isl_pw_aff in isl_aff.c, isl_pw_union_opt.c, isl_pw_eval.c and the
    functions of isl_aff.c on isl_pw_aff.

    A set is a list of basic sets without input dimensions (SetModel.v), an
    affine expression is that of AffModel.v.  All arguments of a function have
    the same parameters (their alignment is in ReorderModel.v) and the same
    space; [sp] is the common space of the domains.  Rational sets,
    reference counts, the sizes of the arrays and failing allocations are not
    modelled.  The operations on sets, the simplification of an expression on a set
    (isl_aff_gist, isl_aff_substitute_equalities with isl_set_affine_hull),
    isl_aff_plain_cmp and isl_sort are parameters. *)
From Coq Require Import ZArith List Bool Arith.
From Verif Require Import SeqModel MatModel BMapModel LocalModel SimpModel SetModel SubModel SpaceModel ValModel AffModel.
Import ListNotations.
Open Scope Z_scope.

Notation set := (list bmap).
(** struct isl_pw_aff, isl_aff_private.h:34-43 *)
Definition piece := (set * aff)%type.
Definition pwaff := list piece.

(** isl_map_plain_is_empty, isl_map.c:9153-9156 *)
Definition plain_empty (s : set) : bool := Nat.eqb (length s) 0.
(** isl_set_universe, isl_map.c:6366-6374 *)
Definition set_universe (sp : space) : set := [fresh_map (nparam sp) 0 (n_out sp)].

(** ** the set of an affine constraint *)

(** isl_basic_map_add_div_constraints, isl_map.c:5564-5570, and
    add_known_div_constraints, isl_map.c:536-558 *)
Definition add_known_div_constraints (b : bmap) : bmap :=
  fold_left (fun b i => if hd 0 (nth i (b_div b) []) =? 0 then b else add_lower_div_constraint (add_upper_div_constraint b i) i) (seq 0 (ndiv b)) b.
(** isl_basic_map_from_local_space, isl_map.c:560-590 *)
Definition from_local_space (sp : space) (div : mat) : bmap :=
  add_known_div_constraints (mkb (nparam sp) 0 (n_out sp) [] [] div false false false).

Section Params.
(** isl_basic_set_simplify, isl_map_simplify.c:1548-1552 *)
Variable simplify : bmap -> res bmap.
(** isl_set_intersect, isl_set_subtract, isl_set_union *)
Variable intersect subtract union : set -> set -> res set.
(** isl_aff_gist, isl_aff.c:2245-2256 *)
Variable gist : aff -> set -> res aff.
(** isl_aff_substitute_equalities, isl_aff.c:2223-2238, of the affine hull of a set *)
Variable subst_hull : aff -> set -> res aff.
(** isl_aff_plain_cmp, isl_aff.c:7634-7657 *)
Variable acmp : aff -> aff -> Z.
(** isl_sort of isl_sort.c with isl_pw_aff_sort_field_cmp *)
Variable sort : pwaff -> pwaff.
(** isl_set_is_disjoint, isl_set_is_subset, isl_set_is_empty *)
Variable is_disjoint is_subset : set -> set -> res bool.
Variable is_empty : set -> bool.
(** isl_set_coalesce, isl_set_complement, isl_set_normalize *)
Variable coalesce complement : set -> res set.
Variable normalize : set -> res set.
(** isl_set_plain_is_equal *)
Variable plain_equal : set -> set -> res bool.
(** isl_set_contains_point *)
Variable contains : set -> list Z -> res bool.
(** memory that was not initialized (see AffModel.v) *)
Variable junk : nat -> Z.
(** the common space of the domains *)
Variable sp : space.

(** aff_nonneg_basic_set, isl_aff.c:2308-2329 (with isl_inequality_from_aff,
    isl_constraint.c:1300-1303), aff_zero_basic_set, isl_aff.c:2363-2384, and
    aff_pos_basic_set, isl_aff.c:2271-2300, with isl_basic_map_from_constraint, isl_constraint.c:703-742,
    followed by isl_set_from_basic_set, isl_map.c:3482-3485 *)
Definition empty_basic : bmap := mkb (nparam sp) 0 (n_out sp) [] [] [] false true false.
Definition aff_nonneg (f : aff) : res set :=
  if aff_is_nan f then Ok (add_basic_map [] empty_basic)
  else
    let b := from_local_space sp (a_div f) in
    let! b := simplify (set_ineq b (b_ineq b ++ [skipn 1 (a_v f)])) in Ok (add_basic_map [] b).
Definition aff_zeroes (f : aff) : res set :=
  if aff_is_nan f then Ok (add_basic_map [] empty_basic)
  else
    let b := from_local_space sp (a_div f) in
    let! b := simplify (set_eq b (b_eq b ++ [skipn 1 (a_v f)])) in Ok (add_basic_map [] b).
Definition aff_pos (f : aff) : res set :=
  if aff_is_nan f then Ok (add_basic_map [] empty_basic)
  else
    let b := from_local_space sp (a_div f) in
    let c := skipn 1 (a_v f) in
    let! b := simplify (set_ineq b (b_ineq b ++ [zupd c 0 (nth 0 c 0 - 1)])) in Ok (add_basic_map [] b).
(** isl_aff_ge_set, isl_aff.c:2419-2423, with isl_aff_ge_basic_set,
    isl_aff.c:2397-2403; isl_aff_le_set, isl_aff.c:2458-2462 *)
Definition aff_ge_set (f1 f2 : aff) : res set := let! f := aff_sub junk f1 f2 in aff_nonneg f.
Definition aff_le_set (f1 f2 : aff) : res set := aff_ge_set f2 f1.

(** ** pieces *)

(** isl_pw_*_add_piece, isl_pw_templ.c:96-112, with isl_aff_is_empty,
    isl_aff.c:2518-2524 *)
Definition add_piece (pw : pwaff) (s : set) (f : aff) : pwaff := if plain_empty s then pw else pw ++ [(s, f)].
(** isl_pw_*_alloc, isl_pw_templ.c:149-164 *)
Definition pw_alloc (s : set) (f : aff) : pwaff := add_piece [] s f.
(** isl_pw_*_from_*_type_base, isl_pw_templ.c:477-482 *)
Definition pw_from_aff (f : aff) : pwaff := pw_alloc (set_universe sp) f.
(** isl_pw_*_domain, isl_pw_templ.c:926-941 *)
Definition pw_domain (pw : pwaff) : set := fold_left (fun d p => map_union_disjoint d (fst p)) pw [].
(** the loop of isl_pw_*_eval, isl_pw_eval.c:79-85, and its result,
    isl_pw_eval.c:86-93 *)
Fixpoint pw_eval (pw : pwaff) (v : list Z) : res val :=
  match pw with
  | [] => Ok v_nan
  | (s, f) :: t => let! c := contains s v in if c then aff_eval f v else pw_eval t v
  end.
(** isl_pw_*_un_op, isl_pw_un_op_templ.c:16-36 *)
Fixpoint un_op (fn : aff -> res aff) (pw : pwaff) : res pwaff :=
  match pw with
  | [] => Ok []
  | (s, f) :: t => let! f := fn f in let! t := un_op fn t in Ok ((s, f) :: t)
  end.
(** isl_pw_*_neg, isl_pw_neg_templ.c:13-16; isl_pw_aff_floor,
    isl_aff.c:3276-3279; isl_pw_aff_ceil, isl_aff.c:3281-3284 *)
Definition pw_neg (pw : pwaff) : res pwaff := un_op (fun f => Ok (aff_neg f)) pw.
Definition pw_floor (pw : pwaff) : res pwaff := un_op aff_floor pw.
Definition pw_ceil (pw : pwaff) : res pwaff := un_op aff_ceil pw.
(** isl_pw_*_mul_isl_int, isl_pw_templ.c:1912-1941 *)
Definition pw_scale (pw : pwaff) (k : Z) : res pwaff := if k =? 1 then Ok pw else un_op (fun f => Ok (aff_scale f k)) pw.
(** isl_pw_aff_scale_down, isl_aff.c:3250-3274 *)
Definition pw_scale_down (pw : pwaff) (k : Z) : res pwaff :=
  if k =? 1 then Ok pw else if negb (0 <? k) then Null else un_op (fun f => aff_scale_down f k) pw.
(** isl_pw_aff_is_cst, isl_aff.c:3368-3382 *)
Definition pw_is_cst (pw : pwaff) : bool := forallb (fun p => aff_is_cst (snd p)) pw.
(** isl_pw_*_involves_nan, isl_pw_templ.c:2122-2138 *)
Definition pw_involves_nan (pw : pwaff) : bool := existsb (fun p => aff_is_nan (snd p)) pw.

(** ** operations on shared domains *)

(** the inner loop of isl_pw_*_on_shared_domain_in, isl_pw_templ.c:856-878, and
    the outer one, isl_pw_templ.c:855-879 *)
Fixpoint shared_inner (fn : aff -> aff -> res aff) (s1 : set) (f1 : aff) (pw2 acc : pwaff) : res pwaff :=
  match pw2 with
  | [] => Ok acc
  | (s2, f2) :: t =>
    let! common := intersect s1 s2 in
    if plain_empty common then shared_inner fn s1 f1 t acc
    else
      let! f := fn f1 f2 in
      let! f := gist f common in
      shared_inner fn s1 f1 t (add_piece acc common f)
  end.
Fixpoint shared_outer (fn : aff -> aff -> res aff) (pw1 pw2 acc : pwaff) : res pwaff :=
  match pw1 with
  | [] => Ok acc
  | (s1, f1) :: t => let! acc := shared_inner fn s1 f1 pw2 acc in shared_outer fn t pw2 acc
  end.
(** isl_pw_*_on_shared_domain, isl_pw_templ.c:902-917 *)
Definition on_shared_domain (fn : aff -> aff -> res aff) (pw1 pw2 : pwaff) : res pwaff := shared_outer fn pw1 pw2 [].
(** isl_pw_aff_add, isl_aff.c:3485-3490; isl_pw_*_sub, isl_pw_sub_templ.c:13-16;
    isl_pw_aff_mul, isl_aff.c:3498-3503; isl_pw_aff_div, isl_aff.c:3507-3525, of
    expressions that do not share their coefficients *)
Definition pw_add (pw1 pw2 : pwaff) : res pwaff := on_shared_domain (aff_add junk) pw1 pw2.
Definition pw_sub (pw1 pw2 : pwaff) : res pwaff := let! n := pw_neg pw2 in pw_add pw1 n.
Definition pw_mul (pw1 pw2 : pwaff) : res pwaff := on_shared_domain aff_mul pw1 pw2.
Definition pw_div (pw1 pw2 : pwaff) : res pwaff := if negb (pw_is_cst pw2) then Null else on_shared_domain (aff_div false) pw1 pw2.
(** isl_pw_aff_mod, isl_aff.c:1745-1756 *)
Definition pw_mod (pw : pwaff) (m : Z) : res pwaff :=
  let! q := pw_scale_down pw m in
  let! q := pw_floor q in
  let! q := pw_scale q m in
  pw_sub pw q.

(** ** operations on the union of the domains *)

(** the loop over j of isl_pw_*_union_add_, isl_pw_templ.c:712-730 *)
Fixpoint uadd_inner (s1 : set) (f1 : aff) (pw2 : pwaff) (rest : set) (acc : pwaff) : res pwaff :=
  match pw2 with
  | [] => Ok (add_piece acc rest f1)
  | (s2, f2) :: t =>
    let! common := intersect s1 s2 in
    if plain_empty common then uadd_inner s1 f1 t rest acc
    else
      let! rest := subtract rest s2 in
      let! f := aff_add junk f1 f2 in
      let! f := gist f common in
      uadd_inner s1 f1 t rest (add_piece acc common f)
  end.
(** the loop over i, isl_pw_templ.c:710-731 *)
Fixpoint uadd_outer (pw1 pw2 acc : pwaff) : res pwaff :=
  match pw1 with
  | [] => Ok acc
  | (s1, f1) :: t => let! acc := uadd_inner s1 f1 pw2 s1 acc in uadd_outer t pw2 acc
  end.
(** the loop over i, isl_pw_templ.c:735-737 *)
Fixpoint subtract_all (s : set) (pw : pwaff) : res set :=
  match pw with
  | [] => Ok s
  | (s1, _) :: t => let! s := subtract s s1 in subtract_all s t
  end.
(** the loop over j, isl_pw_templ.c:733-739 *)
Fixpoint uadd_rest (pw1 pw2 acc : pwaff) : res pwaff :=
  match pw2 with
  | [] => Ok acc
  | (s2, f2) :: t => let! s := subtract_all s2 pw1 in uadd_rest pw1 t (add_piece acc s f2)
  end.
(** isl_pw_*_union_add_, isl_pw_templ.c:679-749 *)
Definition union_add (pw1 pw2 : pwaff) : res pwaff :=
  match pw1, pw2 with
  | [], _ => Ok pw2
  | _, [] => Ok pw1
  | _, _ => let! acc := uadd_outer pw1 pw2 [] in uadd_rest pw1 pw2 acc
  end.
(** the loop of isl_pw_*_add_disjoint, isl_pw_templ.c:818-821 *)
Definition append_pieces (pw1 pw2 : pwaff) : pwaff := fold_left (fun acc p => add_piece acc (fst p) (snd p)) pw2 pw1.
(** isl_pw_*_add_disjoint, isl_pw_templ.c:786-830; [full] tells whether there is
    not enough room for the pieces of the second argument in the first one *)
Definition add_disjoint (full : pwaff -> pwaff -> bool) (pw1 pw2 : pwaff) : pwaff :=
  if full pw1 pw2 && Nat.ltb (length pw1) (length pw2) then
    match pw2, pw1 with [], _ => pw1 | _, [] => pw2 | _, _ => append_pieces pw2 pw1 end
  else match pw1, pw2 with [], _ => pw2 | _, [] => pw1 | _, _ => append_pieces pw1 pw2 end.

(** ** restrictions of the domain *)

Definition replace (pw : pwaff) (i : nat) (p : piece) : pwaff := firstn i pw ++ [p] ++ skipn (S i) pw.
(** isl_pw_*_exploit_equalities_and_remove_if_empty, isl_pw_templ.c:948-976,
    for the piece at position [i] that has been replaced by the set [s] and the
    expression [f] *)
Definition exploit_or_remove (pw : pwaff) (i : nat) (s : set) (f : aff) : res pwaff :=
  if plain_empty s then
    let n := length pw in
    if Nat.eqb i (n - 1) then Ok (removelast pw)
    else Ok (removelast (replace pw i (last pw (s, f))))
  else let! f := subst_hull f s in Ok (replace pw i (s, f)).
(** isl_pw_*_restrict_domain, isl_pw_templ.c:1035-1063; [i] is one more than
    the variable of the code *)
Fixpoint restrict_loop (fn : set -> res set) (i : nat) (pw : pwaff) : res pwaff :=
  match i with
  | O => Ok pw
  | S i' =>
    match nth_error pw i' with
    | None => UB
    | Some (s, f) => let! s := fn s in let! pw := exploit_or_remove pw i' s f in restrict_loop fn i' pw
    end
  end.
Definition restrict_domain (fn : set -> set -> res set) (pw : pwaff) (c : set) : res pwaff :=
  restrict_loop (fun s => fn s c) (length pw) pw.
(** isl_pw_*_intersect_domain, isl_pw_templ.c:1065-1069;
    isl_pw_*_subtract_domain, isl_pw_templ.c:1100-1104 *)
Definition intersect_domain (pw : pwaff) (c : set) : res pwaff := restrict_domain intersect pw c.
Definition subtract_domain (pw : pwaff) (c : set) : res pwaff := restrict_domain subtract pw c.

(** ** pieces with the same expression *)

(** the loop of isl_pw_*_sort_unique, isl_pw_templ.c:1141-1165 *)
Fixpoint unique_loop (i : nat) (pw : pwaff) : res pwaff :=
  match i with
  | O => Ok pw
  | S i' =>
    match nth_error pw i', nth_error pw i with
    | Some (s0, f0), Some (s, f) =>
      if aff_plain_is_equal f f0 then
        let! u := union s0 s in
        unique_loop i' (firstn i' pw ++ [(u, f0)] ++ skipn (S i) pw)
      else unique_loop i' pw
    | _, _ => UB
    end
  end.
(** isl_pw_*_sort_unique, isl_pw_templ.c:1129-1168 *)
Definition sort_unique (pw : pwaff) : res pwaff :=
  if Nat.leb (length pw) 1 then Ok pw else unique_loop (length pw - 1) (sort pw).
(** the loops of isl_pw_*_coalesce, isl_pw_templ.c:1337-1341, and
    isl_pw_*_normalize, isl_pw_templ.c:2053-2059 *)
Fixpoint each_set (fn : set -> res set) (pw : pwaff) : res pwaff :=
  match pw with
  | [] => Ok []
  | (s, f) :: t => let! s := fn s in let! t := each_set fn t in Ok ((s, f) :: t)
  end.
(** isl_pw_*_coalesce, isl_pw_templ.c:1327-1347; isl_pw_*_normalize,
    isl_pw_templ.c:2045-2062 *)
Definition pw_coalesce (pw : pwaff) : res pwaff := let! pw := sort_unique pw in each_set coalesce pw.
Definition pw_normalize (pw : pwaff) : res pwaff := let! pw := sort_unique pw in each_set normalize pw.
(** the loop of isl_pw_*_plain_is_equal, isl_pw_templ.c:2100-2109 *)
Fixpoint equal_pieces (pw1 pw2 : pwaff) : res bool :=
  match pw1, pw2 with
  | (s1, f1) :: t1, (s2, f2) :: t2 =>
    let! e := plain_equal s1 s2 in
    if e then if aff_plain_is_equal f1 f2 then equal_pieces t1 t2 else Ok false else Ok false
  | _, _ => Ok true
  end.
(** isl_pw_*_plain_is_equal, isl_pw_templ.c:2072-2118, for different objects
    with the same space *)
Definition pw_plain_equal (pw1 pw2 : pwaff) : res bool :=
  if pw_involves_nan pw1 || pw_involves_nan pw2 then Ok false
  else
    let! pw1 := pw_normalize pw1 in
    let! pw2 := pw_normalize pw2 in
    if negb (Nat.eqb (length pw1) (length pw2)) then Ok false else equal_pieces pw1 pw2.

(** ** the better one of two expressions: isl_pw_union_opt.c *)

(** isl_pw_*_better_or_out, isl_pw_union_opt.c:48-57;
    isl_pw_*_worse_or_out, isl_pw_union_opt.c:63-72 *)
Definition better_or_out (s better out : set) : res set :=
  let! b := intersect s better in
  let! o := subtract s better in
  let! o := subtract o out in
  union b o.
Definition worse_or_out (s better out : set) : res set :=
  let! w := subtract s better in
  let! o := intersect s better in
  let! o := subtract o out in
  union w o.
(** isl_pw_*_union_opt_cmp_split, isl_pw_union_opt.c:121-137: [c1] and [c2] are
    the updated cells, [s1] and [s2] the original domains and [better] contains
    the elements where the second piece is better; the result has the two new cells *)
Definition opt_split (c1 c2 s1 s2 better : set) : res (set * set) :=
  let! c1 := worse_or_out c1 better s2 in
  let! c2 := better_or_out c2 better s1 in
  Ok (c1, c2).
(** isl_pw_*_union_opt_cmp_pair, isl_pw_union_opt.c:145-156 *)
Definition opt_pair (cmp : aff -> aff -> res set) (c1 c2 : set) (p1 p2 : piece) : res (set * set) :=
  let! better := cmp (snd p2) (snd p1) in opt_split c1 c2 (fst p1) (fst p2) better.
(** isl_pw_*_union_opt_cmp_two, isl_pw_union_opt.c:181-211 *)
Definition opt_two (cmp : aff -> aff -> res set) (c1 c2 : set) (p1 p2 : piece) : res (set * set) :=
  let! sub := is_subset (fst p2) (fst p1) in
  if negb sub then opt_pair cmp c1 c2 p1 p2
  else
    let! better := cmp (snd p1) (snd p2) in
    let swapped := let! r := opt_split c2 c1 (fst p2) (fst p1) better in Ok (snd r, fst r) in
    if is_empty better then swapped
    else
      let! sub := is_subset (fst p1) better in
      if sub then swapped else opt_pair cmp c1 c2 p1 p2.
(** the inner loop of isl_pw_*_union_opt_cmp, isl_pw_union_opt.c:333-347: the
    lists contain a cell and the original piece *)
Definition cell := (set * piece)%type.
Fixpoint opt_inner (cmp : aff -> aff -> res set) (c1 : set) (p1 : piece) (l2 : list cell) : res (set * list cell) :=
  match l2 with
  | [] => Ok (c1, [])
  | (c2, p2) :: t =>
    let! d := is_disjoint (fst p1) (fst p2) in
    let! r := (if d then Ok (c1, c2) else opt_two cmp c1 c2 p1 p2) in
    let! q := opt_inner cmp (fst r) p1 t in
    Ok (fst q, (snd r, p2) :: snd q)
  end.
(** the outer loop, isl_pw_union_opt.c:332-348 *)
Fixpoint opt_outer (cmp : aff -> aff -> res set) (l1 l2 : list cell) : res (list cell * list cell) :=
  match l1 with
  | [] => Ok ([], l2)
  | (c1, p1) :: t =>
    let! r := opt_inner cmp c1 p1 l2 in
    let! q := opt_outer cmp t (snd r) in
    Ok ((fst r, p1) :: fst q, snd q)
  end.
(** the loop of isl_pw_*_merge, isl_pw_union_opt.c:245-272 *)
Fixpoint merge_cells (fuel : nat) (l1 l2 : list cell) (acc : pwaff) : res pwaff :=
  match l1, l2 with
  | [], [] => Ok acc
  | _, _ =>
    match fuel with
    | O => Div
    | S fuel =>
      match l1, l2 with
      | (c1, p1) :: t1, [] => merge_cells fuel t1 l2 (add_piece acc c1 (snd p1))
      | [], (c2, p2) :: t2 => merge_cells fuel l1 t2 (add_piece acc c2 (snd p2))
      | (c1, p1) :: t1, (c2, p2) :: t2 =>
        let c := acmp (snd p1) (snd p2) in
        if c <? 0 then merge_cells fuel t1 l2 (add_piece acc c1 (snd p1))
        else if 0 <? c then merge_cells fuel l1 t2 (add_piece acc c2 (snd p2))
        else let! s := union c1 c2 in merge_cells fuel t1 t2 (add_piece acc s (snd p1))
      | [], [] => Ok acc
      end
    end
  end.
(** isl_pw_*_merge, isl_pw_union_opt.c:229-275 *)
Definition opt_merge (l1 l2 : list cell) : res pwaff := merge_cells (length l1 + length l2) l1 l2 [].
(** isl_pw_*_extract_domains, isl_pw_union_opt.c:28-42 *)
Definition extract_cells (pw : pwaff) : list cell := map (fun p => (fst p, p)) pw.
(** isl_pw_*_union_opt_cmp, isl_pw_union_opt.c:295-359 *)
Definition union_opt (cmp : aff -> aff -> res set) (pw1 pw2 : pwaff) : res pwaff :=
  match pw1, pw2 with
  | [], _ => Ok pw2
  | _, [] => Ok pw1
  | _, _ =>
    let! pw1 := sort_unique pw1 in
    let! pw2 := sort_unique pw2 in
    let! r := opt_outer cmp (extract_cells pw1) (extract_cells pw2) in
    opt_merge (fst r) (snd r)
  end.
(** isl_pw_aff_union_max, isl_aff.c:2824-2829; isl_pw_aff_union_min,
    isl_aff.c:2837-2842 *)
Definition pw_union_max (pw1 pw2 : pwaff) : res pwaff := union_opt aff_ge_set pw1 pw2.
Definition pw_union_min (pw1 pw2 : pwaff) : res pwaff := union_opt aff_le_set pw1 pw2.

(** ** sets where an expression has some property *)

(** pw_aff_locus, isl_aff.c:2871-2906 *)
Fixpoint locus (fn : aff -> res set) (compl : bool) (pw : pwaff) (acc : set) : res set :=
  match pw with
  | [] => Ok acc
  | (s, f) :: t =>
    if aff_is_nan f then locus fn compl t acc
    else
      let! l := fn f in
      let! s := (if compl then subtract s l else intersect s l) in
      locus fn compl t (map_union_disjoint acc s)
  end.
(** isl_pw_aff_pos_set, isl_aff.c:2911-2914; isl_pw_aff_nonneg_set,
    isl_aff.c:2919-2922; isl_pw_aff_zero_set, isl_aff.c:2927-2930;
    isl_pw_aff_non_zero_set, isl_aff.c:2935-2938 *)
Definition pw_pos_set (pw : pwaff) : res set := locus aff_pos false pw [].
Definition pw_nonneg_set (pw : pwaff) : res set := locus aff_nonneg false pw [].
Definition pw_zero_set (pw : pwaff) : res set := locus aff_zeroes false pw [].
Definition pw_non_zero_set (pw : pwaff) : res set := locus aff_zeroes true pw [].
(** pw_aff_gte_set, isl_aff.c:3002-3026 *)
Definition gte_set (pw1 pw2 : pwaff) (strict equal : bool) : res set :=
  let! s := intersect (pw_domain pw1) (pw_domain pw2) in
  let! pw1 := intersect_domain pw1 s in
  let! pw2 := intersect_domain pw2 s in
  let! n := pw_neg pw2 in
  let! d := pw_add pw1 n in
  let! d := (if strict then let! z := aff_zero sp [] in pw_add d (pw_alloc s (aff_add_constant z (-1))) else Ok d) in
  if equal then pw_zero_set d else pw_nonneg_set d.
(** isl_pw_aff_eq_set, isl_aff.c:3031-3036; isl_pw_aff_ge_set,
    isl_aff.c:3041-3046; isl_pw_aff_gt_set, isl_aff.c:3051-3056;
    isl_pw_aff_le_set, isl_aff.c:3058-3062; isl_pw_aff_lt_set,
    isl_aff.c:3064-3068; isl_pw_aff_ne_set, isl_aff.c:3238-3248 *)
Definition pw_eq_set (pw1 pw2 : pwaff) : res set := gte_set pw1 pw2 false true.
Definition pw_ge_set (pw1 pw2 : pwaff) : res set := gte_set pw1 pw2 false false.
Definition pw_gt_set (pw1 pw2 : pwaff) : res set := gte_set pw1 pw2 true false.
Definition pw_le_set (pw1 pw2 : pwaff) : res set := pw_ge_set pw2 pw1.
Definition pw_lt_set (pw1 pw2 : pwaff) : res set := pw_gt_set pw2 pw1.
Definition pw_ne_set (pw1 pw2 : pwaff) : res set :=
  let! l := pw_lt_set pw1 pw2 in let! g := pw_gt_set pw1 pw2 in Ok (map_union_disjoint l g).

(** ** choices *)

Variable full : pwaff -> pwaff -> bool.
(** isl_pw_aff_select, isl_aff.c:3290-3298 *)
Definition pw_select (c1 : set) (pw1 : pwaff) (c2 : set) (pw2 : pwaff) : res pwaff :=
  let! pw1 := intersect_domain pw1 c1 in
  let! pw2 := intersect_domain pw2 c2 in
  Ok (add_disjoint full pw1 pw2).
(** isl_pw_aff_nan_on_domain, isl_aff.c:260-263 *)
Definition pw_nan : res pwaff := let! n := aff_nan sp [] in Ok (pw_from_aff n).
(** isl_pw_aff_cond, isl_aff.c:3312-3353 *)
Definition pw_cond (cond pwt pwf : pwaff) : res pwaff :=
  if pw_involves_nan cond then pw_nan
  else
    let! e := pw_plain_equal pwt pwf in
    if e then let! d := coalesce (pw_domain cond) in intersect_domain pwt d
    else
      let! ct := pw_non_zero_set cond in
      let! cf := pw_zero_set cond in
      pw_select ct pwt cf pwf.
(** isl_set_indicator_function, isl_aff.c:5716-5730 *)
Definition indicator (s : set) : res pwaff :=
  let! z := aff_zero sp [] in
  let! c := complement s in
  Ok (add_disjoint full (pw_alloc s (aff_add_constant z 1)) (pw_alloc c z)).
(** isl_pw_aff_tdiv_q, isl_aff.c:3536-3561; isl_pw_aff_tdiv_r, isl_aff.c:3572-3593 *)
Definition pw_tdiv_q (pw1 pw2 : pwaff) : res pwaff :=
  if negb (pw_is_cst pw2) then Null
  else
    let! q := pw_div pw1 pw2 in
    let! c := pw_nonneg_set q in
    let! f := pw_floor q in
    let! g := pw_ceil q in
    let! i := indicator c in
    pw_cond i f g.
Definition pw_tdiv_r (pw1 pw2 : pwaff) : res pwaff :=
  if negb (pw_is_cst pw2) then Null
  else
    let! q := pw_tdiv_q pw1 pw2 in
    let! q := pw_mul pw2 q in
    pw_sub pw1 q.
(** nan_on_domain_set, isl_aff.c:3611-3621, and replace_by_nan,
    isl_aff.c:3629-3636 *)
Definition replace_by_nan (pw1 pw2 : pwaff) : res pwaff :=
  let! d := intersect (pw_domain pw1) (pw_domain pw2) in
  let! n := pw_nan in intersect_domain n d.
(** pw_aff_min, isl_aff.c:3638-3650; pw_aff_max, isl_aff.c:3652-3664 *)
Definition pw_aff_min (pw1 pw2 : pwaff) : res pwaff :=
  let! d := intersect (pw_domain pw1) (pw_domain pw2) in
  let! le := pw_le_set pw1 pw2 in
  let! d := subtract d le in
  pw_select le pw1 d pw2.
Definition pw_aff_max (pw1 pw2 : pwaff) : res pwaff :=
  let! d := intersect (pw_domain pw1) (pw_domain pw2) in
  let! ge := pw_ge_set pw1 pw2 in
  let! d := subtract d ge in
  pw_select ge pw1 d pw2.
(** pw_aff_min_max, isl_aff.c:3671-3687, with either_involves_nan,
    isl_aff.c:3597-3606; isl_pw_aff_min, isl_aff.c:3691-3695; isl_pw_aff_max,
    isl_aff.c:3699-3703 *)
Definition pw_min (pw1 pw2 : pwaff) : res pwaff :=
  if pw_involves_nan pw1 || pw_involves_nan pw2 then replace_by_nan pw1 pw2 else pw_aff_min pw1 pw2.
Definition pw_max (pw1 pw2 : pwaff) : res pwaff :=
  if pw_involves_nan pw1 || pw_involves_nan pw2 then replace_by_nan pw1 pw2 else pw_aff_max pw1 pw2.
End Params.
