(** Specification of the hash table: a finite map from keys to data. *)
From Coq Require Import ZArith List Bool.
From Verif Require Import HashModel.
Import ListNotations.
Open Scope Z_scope.

(** abstract state: partial map from keys to data *)
Definition amap (K D : Type) := K -> option D.

(** [step key M o r M']: operation [o] in state [M] may return [r] and leave [M'] *)
Inductive step {K D} (key : D -> K) (M : amap K D) : hop K D -> hresult D -> amap K D -> Prop :=
| step_find k : step key M (OFind k) (RData (M k)) M
| step_insert_old d alloc d' : M (key d) = Some d' ->
    step key M (OInsert d alloc) (RData (Some d')) M
| step_insert_new d alloc M' : M (key d) = None ->
    M' (key d) = Some d -> (forall k, k <> key d -> M' k = M k) ->
    step key M (OInsert d alloc) (RData (Some d)) M'
(* out of memory: nothing changes *)
| step_insert_oom d : M (key d) = None -> step key M (OInsert d false) RNull M
| step_remove k M' : M' k = None -> (forall k', k' <> k -> M' k' = M k') ->
    step key M (ORemove k) (RData (M k)) M'
(* every datum is visited exactly once *)
| step_foreach l : NoDup l -> (forall d, In d l <-> M (key d) = Some d) ->
    step key M OForeach (RList l) M.

Inductive steps {K D} (key : D -> K) : amap K D -> list (hop K D) -> list (hresult D) -> amap K D -> Prop :=
| steps_nil M : steps key M [] [] M
| steps_cons M o r M' os rs M'' :
    step key M o r M' -> steps key M' os rs M'' -> steps key M (o :: os) (r :: rs) M''.

Fixpoint inserts {K D} (os : list (hop K D)) : Z :=
  match os with
  | [] => 0
  | OInsert _ _ :: os' => 1 + inserts os'
  | _ :: os' => inserts os'
  end.
