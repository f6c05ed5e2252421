(** Specification vocabulary for assignments of nested values (C101). *)
From Verif Require Import PyBase IndexModel DMModel StructModel StructSpec PowerModel PowerSpec DMProofs PowerProofs ReadSpec.

Section A.
Context {T : Type} (zero : T).

(** [Receives v r p R]: the right-hand side [p] suits an index that addresses the positions
    [r], and afterwards the index reads [R]; [v] are the elements before the assignment.
    A matrix of positions takes anything that fits it (C10: a scalar, the same shape, the
    transposed vector); a list takes a list that is long enough, element by element, or one
    value for all; a dict takes a dict, whose keys it must have, the other entries keep their
    values, or one value for all. *)
Inductive Receives (v : list T) : rval T -> pay T -> rval T -> Prop :=
| Rc_mat : forall m p M, pay_ok p -> to_mtype p = Ok M -> fits M (dm_sp m) ->
    Receives v (RIdx m) p (RMat (DM (dm_sp m) (map (fit zero M (dm_sp m)) (sp_pat (dm_sp m)))))
| Rc_list : forall l p L, Forall2 (fun ir R => exists q, item p (fst ir) = Some q /\ Receives v (snd ir) q R) (List.combine (seq 0 (length l)) l) L ->
    Receives v (RList l) p (RList L)
| Rc_dict : forall l kv L, NoDup (map fst kv) -> (forall k, In k (map fst kv) -> In k (map fst l)) ->
    Forall2 (fun a b => fst a = fst b /\ ((exists q, dict_get (fst a) kv = Some q /\ Receives v (snd a) q (snd b)) \/ (dict_get (fst a) kv = None /\ Values v (snd a) (snd b)))) l L ->
    Receives v (RDict l) (PayDict kv) (RDict L)
| Rc_all : forall l p L, match p with PayDict _ => False | _ => True end ->
    Forall2 (fun a b => fst a = fst b /\ Receives v (snd a) p (snd b)) l L -> Receives v (RDict l) p (RDict L).

(** Right-hand sides: matrices are proper and a dict has every key once. *)
Inductive PayOk : pay T -> Prop :=
| Po_none : PayOk PayNone
| Po_num : forall x, PayOk (PayNum x)
| Po_mat : forall m, DmOk m -> PayOk (PayMat m)
| Po_list : forall l, Forall PayOk l -> PayOk (PayList l)
| Po_dict : forall l, NoDup (map fst l) -> Forall (fun kv => PayOk (snd kv)) l -> PayOk (PayDict l)
| Po_rep : forall p, PayOk p -> PayOk (PayRep p).

(** No set of names in the index. *)
Definition no_set (pi : list (pel T)) : Prop := Forall (fun p => match p with PSet _ => False | _ => True end) pi.
End A.
