(** Model of isl_sort.c: merge sort with a temporary buffer.

    The array is a list of elements (the element size plays no role), positions
    are element indices.  Reading outside of the array is undefined behaviour
    ([None]).  [cmp x y] is the result of the comparison callback, which is
    assumed not to modify anything. *)
From Coq Require Import ZArith List Bool Arith.
Import ListNotations.

Section Sort.
Context {A : Type} (cmp : A -> A -> Z).

(** block of elements at positions [i..j), as copied by memcpy *)
Definition slice (a : list A) (i j : nat) : list A := firstn (j - i) (skipn i a).
(** memcpy of [b] to position [i] of [a] *)
Definition blit (a : list A) (i : nat) (b : list A) : list A :=
  firstn i a ++ b ++ skipn (i + length b) a.

(** msort, isl_sort.c:85-86: while (lo < am && compare (lo, hi, arg) <= 0) *)
Fixpoint scan_lo (fuel : nat) (a : list A) (lo am hi : nat) : option nat :=
  match fuel with
  | O => None
  | S f =>
    if am <=? lo then Some lo
    else match nth_error a lo, nth_error a hi with
         | Some x, Some y => if (cmp x y <=? 0)%Z then scan_lo f a (S lo) am hi else Some lo
         | _, _ => None
         end
  end.
(** msort, isl_sort.c:98-99: while (hi < ah && compare (hi, lo, arg) < 0) *)
Fixpoint scan_hi (fuel : nat) (a : list A) (lo hi ah : nat) : option nat :=
  match fuel with
  | O => None
  | S f =>
    if ah <=? hi then Some hi
    else match nth_error a hi, nth_error a lo with
         | Some y, Some x => if (cmp y x <? 0)%Z then scan_hi f a lo (S hi) ah else Some hi
         | _, _ => None
         end
  end.

(** the do-while loop of msort and the final copies, isl_sort.c:76-129;
    [b] is the used part of the buffer, so [copied] is its length *)
Fixpoint merge_loop (fuel : nat) (a : list A) (al am ah lo hi a1 : nat) (b : list A) : option (list A) :=
  match fuel with
  | O => None
  | S f =>
    let ls := lo in
    let hs := hi in
    let lo := if (al <? lo) || (am <? hi) then S lo else lo in
    match scan_lo (S (length a)) a lo am hi with
    | None => None
    | Some lo =>
      if lo <? am then
        let '(a1, ls) := match b with [] => (lo, lo) | _ => (a1, ls) end in
        match scan_hi (S (length a)) a lo (S hi) ah with
        | None => None
        | Some hi =>
          let b := b ++ slice a ls lo ++ slice a hs hi in
          if hi <? ah then merge_loop f a al am ah lo hi a1 b
          else Some (blit a a1 (b ++ slice a lo am))
        end
      else match b with
           | _ :: _ => Some (blit a a1 (b ++ slice a ls lo))
           | [] => Some a
           end
    end
  end.

(** msort, isl_sort.c:52-130; sorts the positions [low..high] *)
Fixpoint msort (fuel : nat) (a : list A) (low high : nat) : option (list A) :=
  match fuel with
  | O => None
  | S f =>
    let mid := low + (high - low) / 2 in
    match (if S mid <? high then msort f a (S mid) high else Some a) with
    | None => None
    | Some a =>
      match (if low <? mid then msort f a low mid else Some a) with
      | None => None
      | Some a => merge_loop (S (length a)) a low (S mid) (S high) low (S mid) low []
      end
    end
  end.

(** outcome of isl_sort: return value 0 with the new contents of the array,
    return value -1 (out of memory), undefined behaviour *)
Inductive sres := SOk (a : list A) | SErr (a : list A) | SUB.
(** MergeSort, isl_sort.c:132-151 and isl_sort, isl_sort.c:153-157;
    [alloc] tells whether malloc succeeds *)
Definition isl_sort (alloc : bool) (a : list A) : sres :=
  if length a <? 2 then SOk a
  else if negb alloc then SErr a
  else match msort (length a) a 0 (length a - 1) with Some a' => SOk a' | None => SUB end.
End Sort.
