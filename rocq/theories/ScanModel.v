(** Model of isl_scan.c: enumeration of the integer points of a set, and of
    isl_set_foreach_point of isl_point.c.

    The tableau (isl_tab.c) is a parameter: its type, the type of snapshots and
    the functions that are used here; what is expected of them is written down
    in ScanSpec.v.  isl_int is Z.  Allocation failures are not modelled. *)
From Coq Require Import ZArith List Bool Arith.
From Verif Require Import MatModel BMapModel LocalModel.
Import ListNotations.
Open Scope Z_scope.

(** enum isl_lp_result, include/isl/lp.h:17-22, with the (rounded) optimum *)
Inductive lp := LpError | LpOk (v : Z) | LpUnbounded | LpEmpty.

(** how a scan ends: the search is complete; the callback stopped it; a function
    of the tableau failed (the return value is isl_stat_error in these two
    cases).  [OutOfFuel] does not exist in the program. *)
Inductive ended (St : Type) := Done (s : St) | Stop (s : St) | Fail (s : St) | OutOfFuel.
Arguments Done {St} s. Arguments Stop {St} s. Arguments Fail {St} s. Arguments OutOfFuel {St}.

Section Scan.
(** struct isl_tab, isl_tab.h:135-182, and struct isl_tab_undo, isl_tab.h:62-66 *)
Variables (tab snap : Type).
(** isl_tab_from_basic_set, isl_tab.c:2424-2428 *)
Variable tab_from : bmap -> res tab.
(** isl_tab_compute_reduced_basis, basis_reduction_templ.c:49-305, starting from the identity matrix (isl_scan.c:137);
    the basis are the rows 1 up to [dim] of tab->basis *)
Variable reduce : nat -> tab -> res (tab * list (list Z)).
(** isl_tab_min with denominator 1, isl_tab.c:3348-3414 *)
Variable tab_min : tab -> list Z -> lp * tab.
(** isl_tab_snap, isl_tab.c:3674-3680, and isl_tab_rollback, isl_tab.c:4014-4043 *)
Variable take_snap : tab -> snap * tab.
Variable rollback : tab -> snap -> res tab.
(** isl_tab_add_valid_eq, isl_tab.c:2044-2077 *)
Variable add_eq : tab -> list Z -> res tab.
(** isl_tab_get_sample_value, isl_tab.c:2565-2598 *)
Variable sample : tab -> res (list Z).

(** struct isl_scan_callback, isl_scan.h:16-19: [add] is the function with the
    data it works on, it returns whether it succeeded; [range] is
    increment_range if [add] is increment_counter *)
Variable St : Type.
Variable add : St -> list Z -> bool * St.
Variable range : option (St -> Z -> Z -> bool * St).

(** min[level], max[level] and snap[level] of isl_basic_set_scan *)
Record frame := mkf { f_min : Z; f_max : Z; f_snap : snap }.

(** add_solution, isl_scan.c:55-66 *)
Definition add_solution (t : tab) (s : St) : res (bool * St) :=
  let! v := sample t in Ok (add s v).

(** the computation of the range of values, isl_scan.c:151-168: the minimum,
    the maximum and whether there is no value; None in case of an error *)
Definition bounds (t : tab) (row : list Z) : option (Z * Z * bool * tab) :=
  let (r1, t1) := tab_min t row in
  match r1 with
  | LpError | LpUnbounded => None
  | _ =>
    let (r2, t2) := tab_min t1 (hd 0 row :: map Z.opp (tl row)) in
    match r1, r2 with
    | LpOk lo, LpOk hi => Some (lo, - hi, false, t2)
    | _, LpEmpty | LpEmpty, LpOk _ => Some (0, 0, true, t2)
    | _, _ => None
    end
  end.

(** the end of a level, isl_scan.c:174-179 and 185-190: [next] is the next
    iteration of the loop *)
Definition level_up (next : bool -> list frame -> tab -> St -> ended St) (l : list frame) (t : tab) (s : St) : ended St :=
  match l with
  | [] => next false [] t s
  | f :: _ => match rollback t (f_snap f) with Ok t => next false l t s | _ => Fail s end
  end.
(** the body of the loop once the range of values is known, isl_scan.c:173-205 *)
Definition step (next : bool -> list frame -> tab -> St -> ended St) (dim : nat) (B : list (list Z)) (empty : bool) (f : frame) (l : list frame) (t : tab) (s : St) : ended St :=
  let level := length l in
  let fixed := - f_min f :: tl (nth level B []) in
  if empty || (f_max f <? f_min f) then level_up next l t s
  else
    match (if (level =? dim - 1)%nat then range else None) with
    | Some range_fn => let (ok, s) := range_fn s (f_min f) (f_max f) in if ok then level_up next l t s else Stop s
    | None =>
      match add_eq t fixed with
      | Ok t =>
        if (level <? dim - 1)%nat then next true (f :: l) t s
        else
          match add_solution t s with
          | Ok (true, s) => match rollback t (f_snap f) with Ok t => next false (f :: l) t s | _ => Fail s end
          | Ok (false, s) => Stop s
          | _ => Fail s
          end
      | _ => Fail s
      end
    end.
(** the loop of isl_basic_set_scan, isl_scan.c:149-206.  [l] holds the elements
    of the arrays min, max and snap for the levels that have been
    initialized, that of the current level first if not [init]; so the level is
    the length of [l] if [init] and one less otherwise (the elements of the other
    levels are written before they are read). *)
Fixpoint loop (fuel : nat) (dim : nat) (B : list (list Z)) (init : bool) (l : list frame) (t : tab) (s : St) : ended St :=
  match fuel with
  | O => OutOfFuel
  | S fuel =>
    if init then
      match bounds t (nth (length l) B []) with
      | None => Fail s
      | Some (lo, hi, empty, t) => let (sn, t) := take_snap t in step (loop fuel dim B) dim B empty (mkf lo hi sn) l t s
      end
    else
      match l with
      | [] => Done s
      | f :: l => step (loop fuel dim B) dim B false (mkf (f_min f + 1) (f_max f) (f_snap f)) l t s
      end
  end.

(** scan_0D, isl_scan.c:68-82 *)
Definition scan_0D (s : St) : ended St := let (ok, s) := add s [1] in if ok then Done s else Stop s.
(** isl_basic_set_scan, isl_scan.c:102-223 *)
Definition scan (fuel : nat) (b : bmap) (s : St) : ended St :=
  if (total b =? 0)%nat then scan_0D s
  else
    match tab_from b with
    | Ok t =>
      match reduce (total b) t with
      | Ok (t, B) => loop fuel (total b) B true [] t s
      | _ => Fail s
      end
    | _ => Fail s
    end.
(** the loop of isl_set_scan, isl_scan.c:239-242 (the same as that of
    isl_set_foreach_point, isl_point.c:596-599) *)
Fixpoint scan_all (fuel : nat) (l : list bmap) (s : St) : ended St :=
  match l with
  | [] => Done s
  | b :: l => match scan fuel b s with Done s => scan_all fuel l s | r => r end
  end.
(** isl_set_make_disjoint and isl_set_compute_divs *)
Variable prepare : list bmap -> res (list bmap).
(** isl_set_scan, isl_scan.c:225-249 *)
Definition set_scan (fuel : nat) (l : list bmap) (s : St) : ended St :=
  match prepare l with Ok l => scan_all fuel l s | _ => Fail s end.
End Scan.
Arguments f_min {snap}. Arguments f_max {snap}. Arguments f_snap {snap}. Arguments mkf {snap}.

(** increment_counter, isl_scan.c:25-37, and increment_range, isl_scan.c:39-51, for a given
    cnt->max *)
Definition increment_counter (max count : Z) (v : list Z) : bool * Z :=
  ((max =? 0) || (count + 1 <? max), count + 1).
Definition increment_range (max count lo hi : Z) : bool * Z :=
  let count := count + hi - lo + 1 in
  if (max =? 0) || (count <? max) then (true, count) else (false, max).

Section Count.
Variables (tab snap : Type) (tab_from : bmap -> res tab) (reduce : nat -> tab -> res (tab * list (list Z))) (tab_min : tab -> list Z -> lp * tab).
Variables (take_snap : tab -> snap * tab) (rollback : tab -> snap -> res tab) (add_eq : tab -> list Z -> res tab) (sample : tab -> res (list Z)).
Variable prepare : list bmap -> res (list bmap).
(** what isl_basic_set_count_upto and isl_set_count_upto do with the result of the scan:
    None for the return value -1 *)
Definition count_result (max : Z) (r : ended Z) : option (option Z) :=
  match r with
  | OutOfFuel => None
  | Done c => Some (Some c)
  | Stop c | Fail c => Some (if c <? max then None else Some c)
  end.
(** isl_basic_set_count_upto, isl_scan.c:251-276 *)
Definition basic_count_upto (fuel : nat) (b : bmap) (max : Z) : option (option Z) :=
  count_result max (scan tab snap tab_from reduce tab_min take_snap rollback add_eq sample Z (increment_counter max) (Some (increment_range max)) fuel b 0).
(** isl_set_count_upto, isl_scan.c:278-302 *)
Definition count_upto (fuel : nat) (l : list bmap) (max : Z) : option (option Z) :=
  count_result max (set_scan tab snap tab_from reduce tab_min take_snap rollback add_eq sample Z (increment_counter max) (Some (increment_range max)) prepare fuel l 0).
(** isl_set_count, isl_scan.c:304-309, and isl_set_count_val, isl_scan.c:314-327 *)
Definition count_val (fuel : nat) (l : list bmap) : option (option Z) := count_upto fuel l 0.
(** isl_point_alloc, isl_point.c:66-96: the vector of the point in a space of
    [dim] dimensions *)
Definition point_alloc (dim : nat) (v : list Z) : list Z := firstn (1 + dim) v.
(** isl_set_foreach_point, isl_point.c:576-609, with foreach_point, isl_point.c:565-574 *)
Definition foreach_point (St : Type) (fn : St -> list Z -> bool * St) (fuel : nat) (dim : nat) (l : list bmap) (s : St) : ended St :=
  set_scan tab snap tab_from reduce tab_min take_snap rollback add_eq sample St (fun s v => fn s (point_alloc dim v)) None prepare fuel l s.
End Count.
