(** Model of the dependence analysis of isl_flow.c: isl_access_info_alloc,
    isl_access_info_add_source and isl_access_info_compute_flow.

    A set (isl_set) is a predicate on integer vectors and a relation (isl_map) a
    predicate on pairs of them: the operations on sets are the operations on
    predicates that they are proved to compute in PropsSet.v and PropsSub.v.  Spaces
    only play a role through the number of dimensions; parameters are constants.
    The wrapped relation [K -> A] is a set of concatenated vectors.
    isl_map_plain_is_empty and isl_set_plain_is_empty are parameters: they may miss
    that a set is empty.  isl_map_partial_lexmax is modelled by its result; it
    fails if there is no maximum.
    Not modelled: acc->restrict_fn (isl_access_info_set_restrict) and
    acc->coscheduled, which are both NULL; and the functions on unions
    (isl_union_access_info, from line 1401 on). *)
From Coq Require Import ZArith List Bool Arith.
From Verif Require Import MatModel SortModel.
Import ListNotations.
Open Scope Z_scope.

(** isl_set and isl_map *)
Definition vec := list Z.
Definition vset := vec -> Prop.
Definition rel := vec -> vec -> Prop.

(** the functions return NULL as soon as one of their arguments is NULL *)
Definition bind {A B} (r : res A) (f : A -> res B) : res B :=
  match r with Ok a => f a | Null => Null | UB => UB | Div => Div end.
Notation "'do' x <- e ;; k" := (bind e (fun x => k)) (at level 200, x pattern, e at level 100, k at level 200).

(** isl_map_reverse, isl_map.c:7182-7186 *)
Definition reverse (m : rel) : rel := fun x y => m y x.
(** isl_map_apply_range, isl_map.c:8612-8646 *)
Definition apply_range (m1 m2 : rel) : rel := fun x z => exists y, m1 x y /\ m2 y z.
(** isl_map_intersect, isl_map.c:3958-3963 *)
Definition intersect (m1 m2 : rel) : rel := fun x y => m1 x y /\ m2 x y.
(** isl_map_union and isl_map_union_disjoint, isl_map.c:8227-8272 *)
Definition union (m1 m2 : rel) : rel := fun x y => m1 x y \/ m2 x y.
(** isl_set_union_disjoint, isl_map.c:8274-8279 *)
Definition set_union (s1 s2 : vset) : vset := fun x => s1 x \/ s2 x.
(** isl_map_subtract, isl_map_subtract.c:533-586 *)
Definition subtract (m1 m2 : rel) : rel := fun x y => m1 x y /\ ~ m2 x y.
(** isl_set_subtract, isl_map_subtract.c:588-593 *)
Definition set_subtract (s1 s2 : vset) : vset := fun x => s1 x /\ ~ s2 x.
(** isl_map_domain, isl_map.c:8129-8142 and isl_map_range, isl_map.c:6109-6122 *)
Definition domain (m : rel) : vset := fun x => exists y, m x y.
Definition range (m : rel) : vset := fun y => exists x, m x y.
(** isl_map_intersect_domain, isl_map.c:8353-8376 and isl_map_intersect_range,
    isl_map.c:8325-8346 *)
Definition intersect_domain (m : rel) (s : vset) : rel := fun x y => m x y /\ s x.
Definition intersect_range (m : rel) (s : vset) : rel := fun x y => m x y /\ s y.
(** isl_map_from_domain_and_range with a universe domain, isl_map.c:6228-6232 *)
Definition from_range (s : vset) : rel := fun _ y => s y.
(** isl_map_empty, isl_map.c:6338-6341 and isl_set_empty, isl_map.c:6343-6346 *)
Definition empty_rel : rel := fun _ _ => False.
Definition empty_set : vset := fun _ => False.
(** the lexicographic order of vectors of the same length *)
Fixpoint lexlt (x y : vec) : Prop :=
  match x, y with
  | a :: x, b :: y => a < b \/ a = b /\ lexlt x y
  | _, _ => False
  end.
(** isl_map_partial_lexmax, isl_map.c:7352-7357: for each element of the set, the
    lexicographically greatest element that the relation associates to it, and the
    elements of the set that nothing is associated to *)
Definition partial_lexmax (m : rel) (s : vset) : rel * vset :=
  (fun x y => s x /\ m x y /\ forall y', m x y' -> y' = y \/ lexlt y' y,
   fun x => s x /\ ~ exists y, m x y).
(** isl_map_range_map, isl_map.c:6158-6162: { [x -> y] -> y } *)
Definition range_map (n : nat) (m : rel) : rel := fun k y => m (firstn n k) (skipn n k) /\ y = skipn n k.
(** isl_map_range_factor_domain, isl_map.c:11106-11127; the first factor of the range
    has [n] dimensions *)
Definition range_factor_domain (n : nat) (m : rel) : rel := fun x y => length y = n /\ exists z, m x (y ++ z).

(** isl_basic_map_equal, isl_map.c:5234-5245 in a space with [d1] input and [d2]
    output dimensions: the first [n] dimensions are equal; var_equal,
    isl_map.c:5099-5122, accesses the coefficients of a dimension without checking
    that it exists *)
Definition equal_first (d1 d2 n : nat) : res rel :=
  if (n <=? d1)%nat && (n <=? d2)%nat then Ok (fun x y => firstn n x = firstn n y) else UB.
(** isl_basic_map_more_at, isl_map.c:5281-5294 *)
Definition more_at (d1 d2 pos : nat) : res rel :=
  if (pos <? d1)%nat && (pos <? d2)%nat then Ok (fun x y => firstn pos x = firstn pos y /\ nth pos y 0 < nth pos x 0) else UB.
(** map_lex_lte_first, isl_map.c:5311-5336: the disjuncts are those of
    isl_basic_map_less_at and isl_basic_map_less_or_equal_at *)
Definition lex_lte_first (d1 d2 n : nat) (equal : bool) : res rel :=
  if (n <=? d1)%nat && (n <=? d2)%nat then
    Ok (fun x y => (exists pos, (pos < n)%nat /\ firstn pos x = firstn pos y /\ nth pos x 0 < nth pos y 0) \/ equal = true /\ firstn n x = firstn n y)
  else UB.

Section Flow.
(** the type of the tokens (void *data) that identify the accesses *)
Context {D : Type}.
(** acc->level_before; a negative value reports an error *)
Variable level_before : D -> D -> Z.
(** isl_map_plain_is_empty, isl_map.c:9153-9156 and isl_set_plain_is_empty,
    isl_map.c:9158-9161 *)
Variable plain_is_empty : rel -> bool.
Variable set_plain_is_empty : vset -> bool.

(** struct isl_labeled_map, isl_flow.c:159-163, without "must", and with the number of
    input dimensions of the map *)
Record lmap := mkl { l_map : rel; l_dim : nat; l_data : D }.
(** struct isl_access_info, isl_flow.c:184-197: the sink, the number of dimensions of
    the accessed elements, max_source, and the array of sources, with the n_must
    must-sources before the n_may may-sources *)
Record info := mki { a_sink : lmap; a_elem : nat; a_max : Z; a_must : list lmap; a_may : list lmap }.
(** struct isl_flow, isl_flow.c:204-209: the maps of dep[2 * j], of dep[2 * j + 1] and
    of dep[2 * n_must + j]; and the sets without source *)
Record flow := mkf { f_must : nat -> rel; f_maym : nat -> rel; f_may : nat -> rel; f_must_no : vset; f_may_no : vset }.

(** isl_access_info_alloc, isl_flow.c:214-243 *)
Definition access_info_alloc (sink : lmap) (elem : nat) (max : Z) : res info :=
  if 0 <=? max then Ok (mki sink elem max [] []) else Null.
(** isl_access_info_add_source, isl_flow.c:283-314 *)
Definition add_source (acc : info) (source : lmap) (must : bool) : res info :=
  if Z.of_nat (length (a_must acc) + length (a_may acc)) <? a_max acc then
    Ok (if must then
          mki (a_sink acc) (a_elem acc) (a_max acc) (a_must acc ++ [source])
            (match a_may acc with [] => [] | m :: may => may ++ [m] end)
        else mki (a_sink acc) (a_elem acc) (a_max acc) (a_must acc) (a_may acc ++ [source]))
  else Null.

(** access_sort_cmp, isl_flow.c:339-371; [hash] is isl_map_get_hash.  If the callback
    reports an error, then the comparison returns 0 and the sort fails in the end *)
Definition access_sort_cmp (hash : rel -> Z) (i1 i2 : lmap) : Z :=
  let level1 := level_before (l_data i1) (l_data i2) in
  if level1 <? 0 then 0
  else if Z.odd level1 then -1
  else
    let level2 := level_before (l_data i2) (l_data i1) in
    if level2 <? 0 then 0
    else if Z.odd level2 then 1
    else if hash (l_map i2) <? hash (l_map i1) then 1
    else if hash (l_map i1) <? hash (l_map i2) then -1 else 0.
(** isl_access_info_sort_sources, isl_flow.c:375-395; simplified: an error is reported
    if the callback fails on any pair of must-sources, while the code only notices
    the pairs that isl_sort compares *)
Definition sort_sources (hash : rel -> Z) (alloc : bool) (acc : info) : res info :=
  if (length (a_must acc) <=? 1)%nat then Ok acc
  else match isl_sort (access_sort_cmp hash) alloc (a_must acc) with
    | SOk must =>
      if existsb (fun i1 => existsb (fun i2 => level_before (l_data i1) (l_data i2) <? 0) (a_must acc)) (a_must acc) then Null
      else Ok (mki (a_sink acc) (a_elem acc) (a_max acc) must (a_may acc))
    | SErr _ => Null
    | SUB => UB
    end.

(** after_at_level, isl_flow.c:555-566, in a space with [d1] input and [d2] output
    dimensions *)
Definition after_at_level (d1 d2 level : nat) : res rel :=
  if Nat.odd level then equal_first d1 d2 (Nat.div2 level) else more_at d1 d2 (Nat.div2 level - 1).
(** can_precede_at_level, isl_flow.c:707-714 *)
Definition can_precede_at_level (shared_level : Z) (target_level : nat) : bool :=
  if shared_level <? Z.of_nat target_level then false
  else if Nat.odd target_level && (Z.of_nat target_level <? shared_level) then false
  else true.

Section Core.
(** the sink (after isl_map_range_map) and the sources *)
Variable sink : lmap.
Variables must may : list lmap.
(** acc->source[j] (the position is always that of a source), isl_flow.c:196 *)
Definition src (l : list lmap) (j : nat) : lmap := nth j l sink.

(** an assignment to an element of an array of maps *)
Definition upd (f : nat -> rel) (j : nat) (m : rel) : nat -> rel := fun i => if (i =? j)%nat then m else f i.

(** last_source, isl_flow.c:636-656 *)
Definition last_source (set_C : vset) (j level : nat) : res (rel * vset) :=
  let dep_map := apply_range (l_map sink) (reverse (l_map (src must j))) in
  do after <- after_at_level (l_dim sink) (l_dim (src must j)) level ;;
  let '(result, empty) := partial_lexmax (intersect dep_map after) set_C in
  Ok (reverse result, empty).
(** last_later_source, isl_flow.c:664-697 *)
Definition last_later_source (old_map : rel) (j before_level k after_level : nat) : res (rel * vset) :=
  let set_C := range old_map in
  let dep_map := apply_range (l_map sink) (reverse (l_map (src must k))) in
  do after <- after_at_level (l_dim (src must k)) (l_dim (src must j)) after_level ;;
  let after_write := reverse (apply_range after old_map) in
  let dep_map := intersect dep_map after_write in
  do before_read <- after_at_level (l_dim sink) (l_dim (src must k)) before_level ;;
  let '(result, empty) := partial_lexmax (intersect dep_map before_read) set_C in
  Ok (reverse result, empty).

(** the inner loop of intermediate_sources, isl_flow.c:756-774; [n] levels remain *)
Fixpoint inter_levels (n level : nat) (temp_rel : nat -> rel) (j sink_level k : nat) (plevel2 : Z) : res (nat -> rel) :=
  match n with
  | O => Ok temp_rel
  | S n =>
    if negb (can_precede_at_level plevel2 level) then inter_levels n (S level) temp_rel j sink_level k plevel2
    else
      do (t, trest) <- last_later_source (temp_rel j) j sink_level k level ;;
      if plain_is_empty t then inter_levels n (S level) temp_rel j sink_level k plevel2
      else
        let temp_rel := upd temp_rel j (intersect_range (temp_rel j) trest) in
        let temp_rel := upd temp_rel k (union (temp_rel k) t) in
        inter_levels n (S level) temp_rel j sink_level k plevel2
  end.
(** the loop of intermediate_sources, isl_flow.c:743-775; the sources before
    position [k] remain *)
Fixpoint inter_sources (k : nat) (temp_rel : nat -> rel) (j sink_level depth : nat) : res (nat -> rel) :=
  match k with
  | O => Ok temp_rel
  | S k =>
    let plevel := level_before (l_data (src must k)) (l_data sink) in
    if plevel <? 0 then Null
    else if negb (can_precede_at_level plevel sink_level) then inter_sources k temp_rel j sink_level depth
    else
      let plevel2 := level_before (l_data (src must j)) (l_data (src must k)) in
      if plevel2 <? 0 then Null
      else
        do temp_rel <- inter_levels (S depth - sink_level) sink_level temp_rel j sink_level k plevel2 ;;
        inter_sources k temp_rel j sink_level depth
  end.
(** intermediate_sources, isl_flow.c:731-778 *)
Definition intermediate_sources (temp_rel : nat -> rel) (j sink_level : nat) : res (nat -> rel) :=
  let depth := (2 * l_dim (src must j) + 1)%nat in
  if plain_is_empty (temp_rel j) then Ok temp_rel
  else inter_sources j temp_rel j sink_level depth.

(** all_sources, isl_flow.c:783-800 *)
Definition all_sources (set_C : vset) (j level : nat) : res rel :=
  let read_map := intersect_domain (l_map sink) set_C in
  let dep_map := apply_range read_map (reverse (l_map (src may j))) in
  do after <- after_at_level (l_dim sink) (l_dim (src may j)) level ;;
  Ok (reverse (intersect dep_map after)).
(** all_later_sources, isl_flow.c:808-837 *)
Definition all_later_sources (old_map : rel) (j before_level k after_level : nat) : res rel :=
  let set_C := range old_map in
  let read_map := intersect_domain (l_map sink) set_C in
  let dep_map := apply_range read_map (reverse (l_map (src may j))) in
  do after <- after_at_level (l_dim (src may j)) (l_dim (src must k)) after_level ;;
  let after_write := reverse (apply_range after old_map) in
  let dep_map := intersect dep_map after_write in
  do before_read <- after_at_level (l_dim sink) (l_dim (src may j)) before_level ;;
  Ok (reverse (intersect dep_map before_read)).

(** the inner loop of all_intermediate_sources, isl_flow.c:870-894 *)
Fixpoint all_inter_levels (n level : nat) (map : rel) (must_rel may_rel : nat -> rel) (j sink_level k : nat) (plevel : Z) : res (rel * (nat -> rel) * (nat -> rel)) :=
  match n with
  | O => Ok (map, must_rel, may_rel)
  | S n =>
    if negb (can_precede_at_level plevel level) then all_inter_levels n (S level) map must_rel may_rel j sink_level k plevel
    else
      do t1 <- all_later_sources (may_rel k) j sink_level k level ;;
      let map := union map t1 in
      do t2 <- all_later_sources (must_rel k) j sink_level k level ;;
      let ran := range t2 in
      let map := union map t2 in
      let may_rel := upd may_rel k (union (may_rel k) (intersect_range (must_rel k) ran)) in
      let must_rel := upd must_rel k (subtract (must_rel k) (from_range ran)) in
      all_inter_levels n (S level) map must_rel may_rel j sink_level k plevel
  end.
(** the loop of all_intermediate_sources, isl_flow.c:858-895; [n] must-sources
    remain *)
Fixpoint all_inter_sources (n k : nat) (map : rel) (must_rel may_rel : nat -> rel) (j sink_level depth : nat) : res (rel * (nat -> rel) * (nat -> rel)) :=
  match n with
  | O => Ok (map, must_rel, may_rel)
  | S n =>
    if plain_is_empty (may_rel k) && plain_is_empty (must_rel k) then all_inter_sources n (S k) map must_rel may_rel j sink_level depth
    else
      let plevel := level_before (l_data (src must k)) (l_data (src may j)) in
      if plevel <? 0 then Null
      else
        do (map, must_rel, may_rel) <- all_inter_levels (S depth - sink_level) sink_level map must_rel may_rel j sink_level k plevel ;;
        all_inter_sources n (S k) map must_rel may_rel j sink_level depth
  end.
(** all_intermediate_sources, isl_flow.c:846-898 *)
Definition all_intermediate_sources (map : rel) (must_rel may_rel : nat -> rel) (j sink_level : nat) : res (rel * (nat -> rel) * (nat -> rel)) :=
  let depth := (2 * l_dim (src may j) + 1)%nat in
  all_inter_sources (length must) 0 map must_rel may_rel j sink_level depth.

(** the two arrays and the two sets of sink iterations that
    compute_val_based_dependences works on *)
Record work := mkw { w_must : nat -> rel; w_may : nat -> rel; w_mustdo : vset; w_maydo : vset }.
(** the second loop over the must-sources, isl_flow.c:1224-1238; the sources before
    position [j] remain *)
Fixpoint val_rest (j : nat) (w : work) (level : nat) : res work :=
  match j with
  | O => Ok w
  | S j =>
    let plevel := level_before (l_data (src must j)) (l_data sink) in
    if plevel <? 0 then Null
    else if negb (can_precede_at_level plevel level) then val_rest j w level
    else
      do must_rel <- intermediate_sources (w_must w) j level ;;
      do may_rel <- intermediate_sources (w_may w) j level ;;
      val_rest j (mkw must_rel may_rel (w_mustdo w) (w_maydo w)) level
  end.
(** the first loop over the must-sources, isl_flow.c:1193-1223, and the second *)
Fixpoint val_sources (j : nat) (w : work) (level : nat) : res work :=
  match j with
  | O => Ok w
  | S j =>
    let plevel := level_before (l_data (src must j)) (l_data sink) in
    if plevel <? 0 then Null
    else if negb (can_precede_at_level plevel level) then val_sources j w level
    else
      do (t, mustdo) <- last_source (w_mustdo w) j level ;;
      let must_rel := upd (w_must w) j (union (w_must w j) t) in
      do must_rel <- intermediate_sources must_rel j level ;;
      do (t, maydo) <- last_source (w_maydo w) j level ;;
      let may_rel := upd (w_may w) j (union (w_may w j) t) in
      do may_rel <- intermediate_sources may_rel j level ;;
      let w := mkw must_rel may_rel mustdo maydo in
      if set_plain_is_empty mustdo && set_plain_is_empty maydo then val_rest j w level
      else val_sources j w level
  end.
(** the loop over the may-sources, isl_flow.c:1244-1271; [n] sources remain *)
Fixpoint val_may (n j : nat) (w : work) (dep : nat -> rel) (level : nat) : res (work * (nat -> rel)) :=
  match n with
  | O => Ok (w, dep)
  | S n =>
    let plevel := level_before (l_data (src may j)) (l_data sink) in
    if plevel <? 0 then Null
    else if negb (can_precede_at_level plevel level) then val_may n (S j) w dep level
    else
      do t <- all_sources (w_maydo w) j level ;;
      let dep := upd dep j (union (dep j) t) in
      do t <- all_sources (w_mustdo w) j level ;;
      let ran := range t in
      let dep := upd dep j (union (dep j) t) in
      let mustdo := set_subtract (w_mustdo w) ran in
      let maydo := set_union (w_maydo w) ran in
      do (t, must_rel, may_rel) <- all_intermediate_sources (dep j) (w_must w) (w_may w) j level ;;
      val_may n (S j) (mkw must_rel may_rel mustdo maydo) (upd dep j t) level
  end.
(** the loop over the levels, isl_flow.c:1185-1286, from level [level] down;
    handle_coscheduled (isl_flow.c:1240) does nothing *)
Fixpoint val_levels (level : nat) (res : flow) : MatModel.res flow :=
  match level with
  | O => Ok res
  | S level' =>
    do w <- val_sources (length must) (mkw (fun _ => empty_rel) (fun _ => empty_rel) (f_must_no res) (f_may_no res)) level ;;
    do (w, dep) <- val_may (length may) 0 w (f_may res) level ;;
    let res := mkf (fun j => union (f_must res j) (w_must w j)) (fun j => union (f_maym res j) (w_may w j)) dep (w_mustdo w) (w_maydo w) in
    if set_plain_is_empty (w_mustdo w) && set_plain_is_empty (w_maydo w) then Ok res
    else val_levels level' res
  end.
(** compute_val_based_dependences, isl_flow.c:1149-1305; mustdo and maydo are the last
    two fields of the flow from the start *)
Definition compute_val_based_dependences : res flow :=
  let depth := (2 * l_dim sink + 1)%nat in
  let mustdo := domain (l_map sink) in
  let res := mkf (fun _ => empty_rel) (fun _ => empty_rel) (fun _ => empty_rel) mustdo empty_set in
  if set_plain_is_empty mustdo then Ok res else val_levels depth res.

(** the loop of compute_mem_based_dependences, isl_flow.c:1072-1099 *)
Fixpoint mem_sources (n i : nat) (mustdo : vset) (dep : nat -> rel) : res (vset * (nat -> rel)) :=
  match n with
  | O => Ok (mustdo, dep)
  | S n =>
    let plevel := level_before (l_data (src may i)) (l_data sink) in
    if plevel <? 0 then Null
    else
      do before <- lex_lte_first (l_dim (src may i)) (l_dim sink) (Z.to_nat (plevel / 2)) (Z.odd plevel) ;;
      let d := intersect (apply_range (l_map (src may i)) (reverse (l_map sink))) before in
      mem_sources n (S i) (set_subtract mustdo (range d)) (upd dep i (union (dep i) d))
  end.
(** compute_mem_based_dependences, isl_flow.c:1056-1107 *)
Definition compute_mem_based_dependences : res flow :=
  let mustdo := domain (l_map sink) in
  let maydo := mustdo in
  do (mustdo, dep) <- mem_sources (length may) 0 mustdo (fun _ => empty_rel) ;;
  Ok (mkf (fun _ => empty_rel) (fun _ => empty_rel) dep mustdo (set_subtract maydo mustdo)).
End Core.

(** access_info_compute_flow_core, isl_flow.c:1324-1352; the result also contains the
    must-sources in the order that dep is in *)
Definition compute_flow_core (hash : rel -> Z) (alloc : bool) (acc : info) : res (list lmap * flow) :=
  let sink := mkl (range_map (l_dim (a_sink acc)) (l_map (a_sink acc))) (l_dim (a_sink acc) + a_elem acc) (l_data (a_sink acc)) in
  if (length (a_must acc) =? 0)%nat then
    do f <- compute_mem_based_dependences sink (a_may acc) ;; Ok ([], f)
  else
    do acc <- sort_sources hash alloc acc ;;
    do f <- compute_val_based_dependences sink (a_must acc) (a_may acc) ;;
    Ok (a_must acc, f).
(** isl_access_info_compute_flow, isl_flow.c:1371-1394 *)
Definition compute_flow (hash : rel -> Z) (alloc : bool) (acc : info) : res (list lmap * flow) :=
  do (must, f) <- compute_flow_core hash alloc acc ;;
  let n := l_dim (a_sink acc) in
  let proj (g : nat -> rel) := fun j => range_factor_domain n (g j) in
  Ok (must, mkf (proj (f_must f)) (proj (f_maym f)) (proj (f_may f)) (f_must_no f) (f_may_no f)).
End Flow.
(** isl_flow_get_no_source, isl_flow.c:511-520; the first tuple of the wrapped
    relation has [n] dimensions *)
Definition get_no_source (n : nat) (f : flow) (must : bool) : rel :=
  fun x y => length x = n /\ (if must then f_must_no f else f_may_no f) (x ++ y).
