(** Model of spaces, isl_space.c: the dimension counts, tuple identifiers,
    nested spaces and identifiers of dimensions of struct isl_space.
    Simplifications: a space is a value (reference counts and isl_space_cow
    are not visible), memory allocation does not fail, the dimension counts do
    not overflow, an identifier is a number (the pointer), NULL spaces are the
    result [None]; error messages are not modelled. *)
From Coq Require Import ZArith List Bool Arith.
Import ListNotations.

(** struct isl_space, isl_space_private.h:9-25; [ids] is [None] for a NULL
    pointer (and n_id == 0), n_id is the length of the array otherwise *)
Inductive space := mksp {
  nparam : nat; n_in : nat; n_out : nat;
  id0 : option Z; id1 : option Z;          (* tuple_id[0], tuple_id[1] *)
  nest0 : option space; nest1 : option space;  (* nested[0], nested[1] *)
  ids : option (list (option Z)) }.
(** the address of isl_id_none, isl_id_private.h:41 *)
Definition id_none : Z := 0%Z.
(** enum isl_dim_type (the values used in spaces) *)
Inductive dtype := Param | In | Out.
Definition dtype_eqb (a b : dtype) : bool :=
  match a, b with Param, Param | In, In | Out, Out => true | _, _ => false end.

Definition idl (s : space) : list (option Z) := match ids s with Some l => l | None => [] end.
Definition n_id (s : space) : nat := length (idl s).
(** n, isl_space.c:328-338; isl_space_dim, isl_space.c:340-345 *)
Definition dim (s : space) (t : dtype) : nat := match t with Param => nparam s | In => n_in s | Out => n_out s end.
Definition dim_all (s : space) : nat := nparam s + n_in s + n_out s.
(** offset, isl_space.c:318-326; isl_space_offset, isl_space.c:365-370 *)
Definition offset (s : space) (t : dtype) : nat := match t with Param => 0 | In => nparam s | Out => nparam s + n_in s end.

Definition with_ids (s : space) (l : option (list (option Z))) : space :=
  mksp (nparam s) (n_in s) (n_out s) (id0 s) (id1 s) (nest0 s) (nest1 s) l.
Definition with_dims (s : space) (p i o : nat) : space := mksp p i o (id0 s) (id1 s) (nest0 s) (nest1 s) (ids s).
Definition with_tuple_id (s : space) (t : dtype) (id : option Z) : space :=
  match t with
  | Param => s
  | In => mksp (nparam s) (n_in s) (n_out s) id (id1 s) (nest0 s) (nest1 s) (ids s)
  | Out => mksp (nparam s) (n_in s) (n_out s) (id0 s) id (nest0 s) (nest1 s) (ids s)
  end.
Definition with_nested (s : space) (t : dtype) (x : option space) : space :=
  match t with
  | Param => s
  | In => mksp (nparam s) (n_in s) (n_out s) (id0 s) (id1 s) x (nest1 s) (ids s)
  | Out => mksp (nparam s) (n_in s) (n_out s) (id0 s) (id1 s) (nest0 s) x (ids s)
  end.
(** tuple_id, isl_space.c:970-980; nested, isl_space.c:982-992 *)
Definition tuple_id (s : space) (t : dtype) : option Z := match t with Param => None | In => id0 s | Out => id1 s end.
Definition nested (s : space) (t : dtype) : option space := match t with Param => None | In => nest0 s | Out => nest1 s end.

(** isl_space_alloc, isl_space.c:28-54 *)
Definition space_alloc (p i o : nat) : space := mksp p i o None None None None None.
(** isl_space_check_range, check_type_range_templ.c:7-20 *)
Definition check_range (s : space) (t : dtype) (first n : nat) : bool := Nat.leb (first + n) (dim s t).
Definition update {A} (l : list A) (i : nat) (a : A) : list A := firstn i l ++ a :: skipn (S i) l.
(** extend_ids, isl_space.c:231-262 *)
Definition extend_ids (s : space) : space :=
  if Nat.leb (dim_all s) (n_id s) then s
  else with_ids s (Some (idl s ++ repeat None (dim_all s - n_id s))).
(** set_id, isl_space.c:264-290, with global_pos, isl_space.c:210-227 *)
Definition set_id (s : space) (t : dtype) (pos : nat) (id : option Z) : option space :=
  if check_range s t pos 1 then
    let g := offset s t + pos in
    if Nat.leb (n_id s) g then
      match id with
      | None => Some s
      | Some _ => let s := extend_ids s in Some (with_ids s (Some (update (idl s) g id)))
      end
    else Some (with_ids s (Some (update (idl s) g id)))
  else None.
(** get_id, isl_space.c:292-303 *)
Definition get_id (s : space) (t : dtype) (pos : nat) : option Z :=
  if check_range s t pos 1 then nth (offset s t + pos) (idl s) None else None.
(** get_ids, isl_space.c:1166-1173 *)
Definition get_ids (s : space) (t : dtype) (first n : nat) : list (option Z) := map (fun i => get_id s t (first + i)) (seq 0 n).
(** set_ids, isl_space.c:1952-1962 *)
Fixpoint set_ids (s : option space) (t : dtype) (first : nat) (l : list (option Z)) : option space :=
  match l with
  | [] => s
  | id :: l' => set_ids (match s with Some s => set_id s t first id | None => None end) t (S first) l'
  end.
(** copy_ids, isl_space.c:372-391 *)
Definition copy_ids (dst : option space) (dt : dtype) (off : nat) (src : space) (st : dtype) : option space :=
  fold_left (fun d i =>
    match d with
    | None => None
    | Some d' => match get_id src st i with None => Some d' | Some id => set_id d' dt (off + i) (Some id) end
    end) (seq 0 (dim src st)) dst.

(** isl_space_set_tuple_id, isl_space.c:636-655; isl_space_reset_tuple_id, isl_space.c:679-697 *)
Definition set_tuple_id (s : space) (t : dtype) (id : option Z) : space := with_tuple_id s t id.
(** mark_as_set, isl_space.c:59-66 *)
Definition mark_as_set (s : space) : space := set_tuple_id s In (Some id_none).
(** isl_space_set_alloc, isl_space.c:156-163 *)
Definition set_alloc (p d : nat) : space := mark_as_set (space_alloc p 0 d).
(** mark_as_params, isl_space.c:168-175 *)
Definition mark_as_params (s : space) : space := set_tuple_id (set_tuple_id s In (Some id_none)) Out (Some id_none).
Definition is_none (id : option Z) : bool := match id with Some z => Z.eqb z id_none | None => false end.
(** isl_space_is_set, isl_space.c:70-79 *)
Definition is_set (s : space) : bool :=
  if negb (Nat.eqb (n_in s) 0) || match nest0 s with Some _ => true | None => false end then false else is_none (id0 s).
(** isl_space_is_map, isl_space.c:98-107 *)
Definition is_map (s : space) : bool := negb (is_none (id0 s)) && negb (is_none (id1 s)).
(** isl_space_is_params, isl_space.c:179-191 *)
Definition is_params (s : space) : bool :=
  if negb (Nat.eqb (n_in s) 0) || match nest0 s with Some _ => true | None => false end
     || negb (Nat.eqb (n_out s) 0) || match nest1 s with Some _ => true | None => false end then false
  else is_none (id0 s) && is_none (id1 s).
(** isl_space_is_wrapping, isl_space.c:2775-2784; isl_space_domain_is_wrapping,
    isl_space.c:2788-2797; isl_space_range_is_wrapping, isl_space.c:2801-2810 *)
Definition is_some {A} (o : option A) : bool := match o with Some _ => true | None => false end.
Definition is_wrapping (s : space) : bool := is_set s && is_some (nest1 s).
Definition domain_is_wrapping (s : space) : bool := negb (is_set s) && is_some (nest0 s).
Definition range_is_wrapping (s : space) : bool := negb (is_set s) && is_some (nest1 s).
(** isl_space_is_product, isl_space.c:2816-2830 *)
Definition is_product (s : space) : bool :=
  if is_set s then is_wrapping s else domain_is_wrapping s && range_is_wrapping s.

(** isl_space_reset, isl_space.c:2911-2927, with
    isl_space_is_named_or_nested, isl_space.c:2877-2889 *)
Definition reset (s : space) (t : dtype) : space :=
  match t with
  | Param => s
  | _ => if is_some (tuple_id s t) || is_some (nested s t) then with_nested (with_tuple_id s t None) t None else s
  end.

Definition opt_eqb (a b : option Z) : bool :=
  match a, b with Some x, Some y => Z.eqb x y | None, None => true | _, _ => false end.
(** isl_space_has_equal_tuples, isl_space.c:996-1007, with
    isl_space_tuple_is_equal, isl_space.c:1047-1075, inlined; the comparisons of
    the pointers of the spaces are shortcuts *)
Fixpoint has_equal_tuples (s1 s2 : space) {struct s1} : bool :=
  (Nat.eqb (n_in s1) (n_in s2) && opt_eqb (id0 s1) (id0 s2) &&
   match nest0 s1, nest0 s2 with
   | Some a, Some b => has_equal_tuples a b | None, None => true | _, _ => false end) &&
  (Nat.eqb (n_out s1) (n_out s2) && opt_eqb (id1 s1) (id1 s2) &&
   match nest1 s1, nest1 s2 with
   | Some a, Some b => has_equal_tuples a b | None, None => true | _, _ => false end).
(** isl_space_tuple_is_equal, isl_space.c:1047-1075 *)
Definition tuple_is_equal (s1 : space) (t1 : dtype) (s2 : space) (t2 : dtype) : bool :=
  Nat.eqb (dim s1 t1) (dim s2 t2) && opt_eqb (tuple_id s1 t1) (tuple_id s2 t2) &&
  match nested s1 t1, nested s2 t2 with
  | Some a, Some b => has_equal_tuples a b | None, None => true | _, _ => false end.
(** match, isl_space.c:1112-1136 *)
Definition match_ (s1 : space) (t1 : dtype) (s2 : space) (t2 : dtype) : bool :=
  if negb (tuple_is_equal s1 t1 s2 t2) then false
  else match ids s1, ids s2 with
       | None, None => true
       | _, _ => forallb (fun i => opt_eqb (get_id s1 t1 i) (get_id s2 t2 i)) (seq 0 (dim s1 t1))
       end.
(** isl_space_has_equal_params, isl_space.c:1140-1144 *)
Definition has_equal_params (s1 s2 : space) : bool := match_ s1 Param s2 Param.
(** isl_space_has_equal_ids, isl_space.c:1149-1158 *)
Definition has_equal_ids (s1 s2 : space) : bool := match_ s1 In s2 In && match_ s1 Out s2 Out.
(** isl_space_is_equal, isl_space.c:2511-2524 *)
Definition is_equal (s1 s2 : space) : bool := has_equal_params s1 s2 && has_equal_tuples s1 s2.
(** isl_space_has_domain_tuples, isl_space.c:2532-2542; isl_space_has_range_tuples, isl_space.c:2550-2560 *)
Definition has_domain_tuples (s1 s2 : space) : bool := is_set s1 && tuple_is_equal s1 Out s2 In.
Definition has_range_tuples (s1 s2 : space) : bool := is_set s1 && tuple_is_equal s1 Out s2 Out.
(** isl_space_is_domain, isl_space.c:2614-2622, with isl_space_is_domain_internal, isl_space.c:2599-2610;
    isl_space_is_range, isl_space.c:2644-2652, with isl_space_is_range_internal, isl_space.c:2629-2640 *)
Definition is_domain (s1 s2 : space) : bool := is_map s2 && has_equal_params s1 s2 && has_domain_tuples s1 s2.
Definition is_range (s1 s2 : space) : bool := is_map s2 && has_equal_params s1 s2 && has_range_tuples s1 s2.

(** ** Changing the dimensions *)

(** space_extend, isl_space.c:1175-1221 *)
Definition space_extend (s : space) (p i o : nat) : option space :=
  if Nat.eqb (nparam s) p && Nat.eqb (n_in s) i && Nat.eqb (n_out s) o then Some s
  else if Nat.leb (nparam s) p && Nat.leb (n_in s) i && Nat.leb (n_out s) o then
    let l := match ids s with
             | None => None
             | Some _ => Some (get_ids s Param 0 (nparam s) ++ repeat None (p - nparam s) ++
                               get_ids s In 0 (n_in s) ++ repeat None (i - n_in s) ++
                               get_ids s Out 0 (n_out s) ++ repeat None (o - n_out s))
             end in
    Some (with_dims (with_ids s l) p i o)
  else None.
Definition opt_map_nest (f : space -> option space) (o : option space) : option (option space) :=
  match o with None => Some None | Some n => match f n with Some n' => Some (Some n') | None => None end end.
(** isl_space_add_dims, isl_space.c:1229-1260 *)
Fixpoint add_dims (s : space) (t : dtype) (k : nat) {struct s} : option space :=
  match t with
  | Param =>
    match space_extend s (nparam s + k) (n_in s) (n_out s) with
    | None => None
    | Some s' =>
      match (match nest0 s with None => Some None | Some n => match add_dims n Param k with Some n' => Some (Some n') | None => None end end),
            (match nest1 s with None => Some None | Some n => match add_dims n Param k with Some n' => Some (Some n') | None => None end end) with
      | Some x0, Some x1 => Some (with_nested (with_nested s' In x0) Out x1)
      | _, _ => None
      end
    end
  | In => let s := reset s In in space_extend s (nparam s) (n_in s + k) (n_out s)
  | Out => let s := reset s Out in space_extend s (nparam s) (n_in s) (n_out s + k)
  end.
(** isl_space_insert_dims, isl_space.c:1312-1387 *)
Definition inserted (s : space) (t t' : dtype) (pos k : nat) : list (option Z) :=
  if dtype_eqb t t' then get_ids s t' 0 pos ++ repeat None k ++ get_ids s t' pos (dim s t' - pos)
  else get_ids s t' 0 (dim s t').
Fixpoint insert_dims (s : space) (t : dtype) (pos k : nat) {struct s} : option space :=
  if Nat.eqb k 0 then Some (reset s t)
  else if check_range s t pos 0 then
    let l := match ids s with
             | None => None
             | Some _ => Some (inserted s t Param pos k ++ inserted s t In pos k ++ inserted s t Out pos k)
             end in
    let s' := with_ids s l in
    match t with
    | In => Some (reset (with_dims s' (nparam s) (n_in s + k) (n_out s)) In)
    | Out => Some (reset (with_dims s' (nparam s) (n_in s) (n_out s + k)) Out)
    | Param =>
      let s' := with_dims s' (nparam s + k) (n_in s) (n_out s) in
      match (match nest0 s with None => Some None | Some n => match insert_dims n Param pos k with Some n' => Some (Some n') | None => None end end),
            (match nest1 s with None => Some None | Some n => match insert_dims n Param pos k with Some n' => Some (Some n') | None => None end end) with
      | Some x0, Some x1 => Some (with_nested (with_nested s' In x0) Out x1)
      | _, _ => None
      end
    end
  else None.
(** the moves of identifiers in isl_space_drop_dims: a block of [k] elements at
    position [b] is moved down to position [a], element by element *)
Definition move_down (l : list (option Z)) (a b k : nat) : list (option Z) :=
  fold_left (fun l i => update l (a + i) (nth (b + i) l None)) (seq 0 k) l.
(** the ids of isl_space_drop_dims, isl_space.c:2067-2086 *)
Definition drop_ids (s : space) (t : dtype) (first num : nat) : list (option Z) :=
  let s := extend_ids s in
  let l := move_down (idl s) (offset s t + first) (offset s t + (first + num)) (dim s t - (first + num)) in
  let l := match t with Param => move_down l (offset s In - num) (offset s In) (n_in s) | _ => l end in
  let l := match t with Out => l | _ => move_down l (offset s Out - num) (offset s Out) (n_out s) end in
  firstn (length l - num) l.
(** isl_space_drop_dims, isl_space.c:2047-2108 *)
Fixpoint drop_dims (s : space) (t : dtype) (first num : nat) {struct s} : option space :=
  if Nat.eqb num 0 then Some (reset s t)
  else if check_range s t first num then
    let l := match ids s with None => None | Some _ => Some (drop_ids s t first num) end in
    let s' := with_ids s l in
    match t with
    | In => Some (reset (with_dims s' (nparam s) (n_in s - num) (n_out s)) In)
    | Out => Some (reset (with_dims s' (nparam s) (n_in s) (n_out s - num)) Out)
    | Param =>
      let s' := with_dims s' (nparam s - num) (n_in s) (n_out s) in
      match (match nest0 s with None => Some None | Some n => match drop_dims n Param first num with Some n' => Some (Some n') | None => None end end),
            (match nest1 s with None => Some None | Some n => match drop_dims n Param first num with Some n' => Some (Some n') | None => None end end) with
      | Some x0, Some x1 => Some (with_nested (with_nested s' In x0) Out x1)
      | _, _ => None
      end
    end
  else None.
(** isl_space_set_dim_id, isl_space.c:704-731, with an identifier, and
    isl_space_reset_dim_id, isl_space.c:738-764, with [None] *)
Fixpoint set_dim_id (s : space) (t : dtype) (pos : nat) (id : option Z) {struct s} : option space :=
  match t with
  | Param =>
    match (match nest0 s with None => Some None | Some n => match set_dim_id n Param pos id with Some n' => Some (Some n') | None => None end end),
          (match nest1 s with None => Some None | Some n => match set_dim_id n Param pos id with Some n' => Some (Some n') | None => None end end) with
    | Some x0, Some x1 => set_id (with_nested (with_nested s In x0) Out x1) Param pos id
    | _, _ => None
    end
  | _ => set_id s t pos id
  end.

Definition bind {A B} (o : option A) (f : A -> option B) : option B := match o with Some a => f a | None => None end.
Notation "'do' x <- e ; k" := (bind e (fun x => k)) (at level 200, x name, e at level 100, k at level 200).

(** isl_space_replace_params, isl_space.c:2966-3009; the fuel bounds the
    nesting depth *)
Fixpoint replace_params_loop (fuel : nat) (dst src : space) : option space :=
  match fuel with
  | O => None
  | S f =>
    if has_equal_params dst src then Some dst
    else
      do d <- drop_dims dst Param 0 (nparam dst) ;
      do d <- add_dims d Param (nparam src) ;
      do d <- copy_ids (Some d) Param 0 src Param ;
      do x0 <- opt_map_nest (fun n => replace_params_loop f n src) (nest0 d) ;
      do x1 <- opt_map_nest (fun n => replace_params_loop f n src) (nest1 d) ;
      Some (with_nested (with_nested d In x0) Out x1)
  end.
Fixpoint depth (s : space) : nat :=
  S (Nat.max (match nest0 s with Some n => depth n | None => 0 end) (match nest1 s with Some n => depth n | None => 0 end)).
Definition replace_params (dst src : space) : option space := replace_params_loop (depth dst) dst src.

(** ** Operations on spaces *)

(** isl_space_reverse, isl_space.c:1964-2015 *)
Definition reverse (s : space) : option space :=
  if match_ s In s Out then Some s
  else
    let l_in := get_ids s In 0 (n_in s) in
    let l_out := get_ids s Out 0 (n_out s) in
    let s' := mksp (nparam s) (n_out s) (n_in s) (id1 s) (id0 s) (nest1 s) (nest0 s) (ids s) in
    match ids s with
    | None => Some s'
    | Some _ => set_ids (set_ids (Some s') Out 0 l_in) In 0 l_out
    end.
(** isl_space_join, isl_space.c:1504-1546 *)
Definition join (left right : space) : option space :=
  if negb (has_equal_params left right) then None
  else if negb (tuple_is_equal left Out right In) then None
  else
    let s := Some (space_alloc (nparam left) (n_in left) (n_out right)) in
    let s := copy_ids s Param 0 left Param in
    let s := copy_ids s In 0 left In in
    do s <- copy_ids s Out 0 right Out ;
    Some (with_nested (with_nested (with_tuple_id (with_tuple_id s In (id0 left)) Out (id1 right)) In (nest0 left)) Out (nest1 right)).
(** isl_space_domain, isl_space.c:2138-2146 *)
Definition domain (s : space) : option space :=
  do s <- drop_dims s Out 0 (n_out s) ; do s <- reverse s ; Some (mark_as_set s).
(** isl_space_from_domain, isl_space.c:2148-2161 *)
Definition from_domain (s : space) : option space :=
  if is_set s then do s <- reverse s ; Some (reset s Out) else None.
(** isl_space_range, isl_space.c:2163-2170 *)
Definition range (s : space) : option space :=
  do s <- drop_dims s In 0 (n_in s) ; Some (mark_as_set s).
(** isl_space_from_range, isl_space.c:2172-2183 *)
Definition from_range (s : space) : option space := if is_set s then Some (reset s In) else None.
(** isl_space_params, isl_space.c:2211-2225 *)
Definition params (s : space) : option space :=
  if is_params s then Some s
  else do s' <- drop_dims s In 0 (n_in s) ; do s' <- drop_dims s' Out 0 (n_out s) ; Some (mark_as_params s').
(** isl_space_set_from_params, isl_space.c:2227-2238 *)
Definition set_from_params (s : space) : option space := if is_params s then Some (reset s Out) else None.
(** isl_space_wrap, isl_space.c:2832-2855 *)
Definition wrap (s : space) : option space :=
  let w := Some (set_alloc (nparam s) (n_in s + n_out s)) in
  let w := copy_ids w Param 0 s Param in
  let w := copy_ids w Out 0 s In in
  do w <- copy_ids w Out (n_in s) s Out ;
  Some (with_nested w Out (Some s)).
(** isl_space_unwrap, isl_space.c:2857-2875 *)
Definition unwrap (s : space) : option space := if is_wrapping s then nest1 s else None.
(** isl_space_map_from_domain_and_range, isl_space.c:1934-1950 *)
Definition map_from_domain_and_range (d r : space) : option space :=
  if is_set d && is_set r then do d <- reverse d ; join d r else None.
(** isl_space_map_from_set, isl_space.c:1894-1932 *)
Definition map_from_set (s : space) : option space :=
  if negb (is_set s) then None
  else
    let n := nparam s + n_out s + n_out s in
    let lst := get_ids s Param 0 (nparam s) ++ get_ids s Out 0 (n_out s) ++ repeat None (n_out s) in
    let s' := with_dims s (nparam s) (n_out s) (n_out s) in
    do s' <- (match ids s with
              | Some _ => if Nat.ltb 0 n then let s' := with_ids s' (Some lst) in copy_ids (Some s') Out 0 s' In else Some s'
              | None => Some s'
              end) ;
    Some (with_nested (with_tuple_id s' In (id1 s)) In (nest1 s)).
(** isl_space_range_product, isl_space.c:1615-1638 *)
Definition range_product (left right : space) : option space :=
  if negb (has_equal_params left right) then None
  else if negb (tuple_is_equal left In right In) then None
  else
    do dom <- domain left ;
    do ran1 <- range left ; do ran2 <- range right ;
    do r <- reverse ran1 ; do j <- join r ran2 ; do nest <- wrap j ;
    do d <- reverse dom ; join d nest.
(** isl_space_domain_product, isl_space.c:1590-1613 *)
Definition domain_product (left right : space) : option space :=
  if negb (has_equal_params left right) then None
  else if negb (tuple_is_equal left Out right Out) then None
  else
    do ran <- range left ;
    do dom1 <- domain left ; do dom2 <- domain right ;
    do r <- reverse dom1 ; do j <- join r dom2 ; do nest <- wrap j ;
    do d <- reverse nest ; join d ran.
(** isl_space_product, isl_space.c:1555-1585 *)
Definition product (left right : space) : option space :=
  if negb (Bool.eqb (is_set left) (is_set right)) then None
  else if is_set left then range_product left right
  else if negb (has_equal_params left right) then None
  else
    do dom1 <- domain left ; do dom2 <- domain right ;
    do r <- reverse dom1 ; do j <- join r dom2 ; do nest1 <- wrap j ;
    do dom1 <- range left ; do dom2 <- range right ;
    do r <- reverse dom1 ; do j <- join r dom2 ; do nest2 <- wrap j ;
    do d <- reverse nest1 ; join d nest2.
(** isl_space_domain_factor_domain, isl_space.c:1642-1674 *)
Definition domain_factor_domain (s : space) : option space :=
  match domain_is_wrapping s, nest0 s with
  | true, Some n =>
    do d <- drop_dims s In (n_in n) (n_out n) ;
    let d := match id0 n with Some _ => with_tuple_id d In (id0 n) | None => d end in
    Some (match nest0 n with Some _ => with_nested d In (nest0 n) | None => d end)
  | _, _ => None
  end.
(** isl_space_domain_factor_range, isl_space.c:1678-1709 *)
Definition domain_factor_range (s : space) : option space :=
  match domain_is_wrapping s, nest0 s with
  | true, Some n =>
    do d <- drop_dims s In 0 (n_in n) ;
    let d := match id1 n with Some _ => with_tuple_id d In (id1 n) | None => d end in
    Some (match nest1 n with Some _ => with_nested d In (nest1 n) | None => d end)
  | _, _ => None
  end.
(** range_factor_domain, isl_space.c:1716-1747 *)
Definition range_factor_domain_ (s : space) : option space :=
  match nest1 s with
  | Some n =>
    do d <- drop_dims s Out (n_in n) (n_out n) ;
    let d := match id0 n with Some _ => with_tuple_id d Out (id0 n) | None => d end in
    Some (match nest0 n with Some _ => with_nested d Out (nest0 n) | None => d end)
  | None => None
  end.
(** isl_space_range_factor_domain, isl_space.c:1751-1758 *)
Definition range_factor_domain (s : space) : option space := if range_is_wrapping s then range_factor_domain_ s else None.
(** isl_space_factor_domain, isl_space.c:1776-1785, with set_factor_domain, isl_space.c:1762-1771 *)
Definition factor_domain (s : space) : option space :=
  if is_set s then if is_wrapping s then range_factor_domain_ s else None
  else do s <- domain_factor_domain s ; range_factor_domain s.
(** range_factor_range, isl_space.c:1792-1822 *)
Definition range_factor_range_ (s : space) : option space :=
  match nest1 s with
  | Some n =>
    do d <- drop_dims s Out 0 (n_in n) ;
    let d := match id1 n with Some _ => with_tuple_id d Out (id1 n) | None => d end in
    Some (match nest1 n with Some _ => with_nested d Out (nest1 n) | None => d end)
  | None => None
  end.
(** isl_space_range_factor_range, isl_space.c:1826-1833 *)
Definition range_factor_range (s : space) : option space := if range_is_wrapping s then range_factor_range_ s else None.
(** isl_space_factor_range, isl_space.c:1851-1860, with set_factor_range, isl_space.c:1837-1846 *)
Definition factor_range (s : space) : option space :=
  if is_set s then if is_wrapping s then range_factor_range_ s else None
  else do s <- domain_factor_range s ; range_factor_range s.
(** isl_space_domain_wrapped_domain, isl_space.c:1864-1868; isl_space_domain_wrapped_range, isl_space.c:1872-1876;
    isl_space_range_wrapped_domain, isl_space.c:1880-1884; isl_space_range_wrapped_range, isl_space.c:1888-1892 *)
Definition domain_wrapped_domain (s : space) : option space := do s <- domain s ; factor_domain s.
Definition domain_wrapped_range (s : space) : option space := do s <- domain s ; factor_range s.
Definition range_wrapped_domain (s : space) : option space := do s <- range s ; factor_domain s.
Definition range_wrapped_range (s : space) : option space := do s <- range s ; factor_range s.
(** isl_space_range_reverse, isl_space.c:2024-2045 *)
Definition range_reverse (s : space) : option space :=
  if range_is_wrapping s then
    match nest1 s with
    | Some n =>
      do r <- reverse n ;
      let s' := with_nested s Out (Some r) in
      Some (if tuple_is_equal n In n Out then s' else with_tuple_id s' Out None)
    | None => None
    end
  else None.
(** isl_space_domain_map, isl_space.c:2187-2196; isl_space_range_map, isl_space.c:2200-2209 *)
Definition domain_map (s : space) : option space :=
  do d <- domain s ; do d <- from_range d ; do w <- wrap s ; do w <- from_domain w ; join w d.
Definition range_map (s : space) : option space :=
  do d <- range s ; do d <- from_range d ; do w <- wrap s ; do w <- from_domain w ; join w d.
(** isl_space_flatten_domain, isl_space.c:2944-2952; isl_space_flatten_range, isl_space.c:2954-2962;
    isl_space_flatten, isl_space.c:2929-2942 *)
Definition flatten_domain (s : space) : space := if is_some (nest0 s) then reset s In else s.
Definition flatten_range (s : space) : space := if is_some (nest1 s) then reset s Out else s.
Definition flatten (s : space) : space := flatten_range (flatten_domain s).
(** isl_space_zip, isl_space.c:3089-3115, with isl_space_can_zip, isl_space.c:3077-3087 *)
Definition zip (s : space) : option space :=
  if negb (is_set s) && is_product s then
    do dom <- domain s ; do dom <- unwrap dom ;
    do ran <- range s ; do ran <- unwrap ran ;
    do dom_dom <- domain dom ; do dom_ran <- range dom ;
    do ran_dom <- domain ran ; do ran_ran <- range ran ;
    do dd <- from_domain dom_dom ; do rd <- from_range ran_dom ; do dom <- join dd rd ;
    do dr <- from_domain dom_ran ; do rr <- from_range ran_ran ; do ran <- join dr rr ;
    do wd <- wrap dom ; do wd <- from_domain wd ;
    do wr <- wrap ran ; do wr <- from_range wr ;
    join wd wr
  else None.
(** isl_space_curry, isl_space.c:3128-3151, with isl_space_can_curry, isl_space.c:3120-3123 *)
Definition curry (s : space) : option space :=
  if domain_is_wrapping s then
    do dom <- domain s ; do dom <- unwrap dom ;
    do ran <- range s ;
    do dom_dom <- domain dom ; do dom_ran <- range dom ;
    do dr <- from_domain dom_ran ; do r <- from_range ran ; do ran <- join dr r ;
    do dd <- from_domain dom_dom ; do w <- wrap ran ; do w <- from_range w ;
    join dd w
  else None.
(** isl_space_uncurry, isl_space.c:3202-3223, with isl_space_can_uncurry, isl_space.c:3194-3197 *)
Definition uncurry (s : space) : option space :=
  if range_is_wrapping s then
    do dom <- domain s ;
    do ran <- range s ; do ran <- unwrap ran ;
    do ran_dom <- domain ran ; do ran_ran <- range ran ;
    do d <- from_domain dom ; do rd <- from_range ran_dom ; do dom <- join d rd ;
    do w <- wrap dom ; do w <- from_domain w ; do rr <- from_range ran_ran ;
    join w rr
  else None.
(** isl_space_range_curry, isl_space.c:3172-3189, with isl_space_can_range_curry, isl_space.c:3157-3167 *)
Definition range_curry (s : space) : option space :=
  if range_is_wrapping s then
    match nest1 s with
    | Some n => if domain_is_wrapping n then do c <- curry n ; Some (with_nested s Out (Some c)) else None
    | None => None
    end
  else None.
