(** Specification vocabulary for callables in indices (C102). *)
From Verif Require Import PyBase IndexModel DMModel StructModel StructSpec PowerModel PowerSpec ReadSpec.
Open Scope list_scope. Open Scope nat_scope.

Section C.
Context {T : Type}.
Notation rval := (rval T).
Notation pel := (pel T).

(** The callable [f] standing behind the index components [pre]: names and integers lead to
    one value, slices, lists and ... to a list, {} and sets to a dict; [f] is applied to
    everything that is found at that level. *)
Fixpoint apply_at (pre : list pel) (f : rval -> res rval) (r : rval) : res rval :=
  match pre with
  | [] => f r
  | (PStr _ | PInt _) :: pre' => apply_at pre' f r
  | (PSlc _ | PLst _ | PEll) :: pre' =>
      match r with RList l => rmap RList (rmapM (apply_at pre' f) l) | _ => Err EException end
  | (PDict | PSet _) :: pre' =>
      match r with
      | RDict l => rmap RDict (rmapM (fun kv => let* x := apply_at pre' f (snd kv) in Ok (fst kv, x)) l)
      | _ => Err EException
      end
  | _ => Err EException
  end.

(** Every exception arrives as an [Exception] (structure3.py:272-273, 426-427). *)
Definition raised {A} (r : res A) : res A := match r with Ok a => Ok a | Err _ => Err EException end.

(** [Above s pre]: behind [pre] one is at a structure or at an entry with repeat dimensions
    left, not at the matrix of an entry. *)
Inductive Above : structure -> list pel -> Prop :=
| B_here : forall s, Above s []
| B_name : forall s n pre, (forall e, In e (s_entries s) -> e_name e = n -> AboveE e (e_dims e) pre) -> Above s (PStr n :: pre)
| B_ell : forall s pre, (forall e, In e (s_entries s) -> AboveE e (e_dims e) pre) -> Above s (PEll :: pre)
| B_dict : forall s pre, (forall e, In e (s_entries s) -> AboveE e (e_dims e) pre) -> Above s (PDict :: pre)
| B_set : forall s names pre, NoDup names -> (forall e, In e (s_entries s) -> In (e_name e) names -> AboveE e (e_dims e) pre) -> Above s (PSet names :: pre)
| B_list : forall s l pre, Above s pre -> Above s (PLst l :: pre)
with AboveE : entry -> list Z -> list pel -> Prop :=
| B_dim : forall e d ds, AboveE e (d :: ds) []
| B_int : forall e d ds i pre, AboveE e ds pre -> AboveE e (d :: ds) (PInt i :: pre)
| B_slice : forall e d ds sl pre, AboveE e ds pre -> AboveE e (d :: ds) (PSlc sl :: pre)
| B_ints : forall e d ds l pre, AboveE e ds pre -> AboveE e (d :: ds) (PLst l :: pre)
| B_sub : forall e s' pre, e_struct e = Some s' -> e_symm e = false -> Above s' pre -> AboveE e [] pre.

(** Names and integers only. *)
Definition path (pre : list pel) : Prop := Forall (fun p => match p with PStr _ | PInt _ => True | _ => False end) pre.

(** Sets are listed without repetition. *)
Definition sets_ok (pi : list pel) : Prop := Forall (fun p => match p with PSet l => NoDup l | _ => True end) pi.

(** A callable that only selects and rearranges: applied to values it does what it does to
    their positions. *)
Definition selects (f : rval -> res rval) : Prop := forall v r R J,
  f r = Ok (RIdx J) -> Values v r R -> exists R', f R = Ok R' /\ Values v (RIdx J) R'.
End C.
