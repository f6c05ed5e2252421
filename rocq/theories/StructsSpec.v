(** Specification vocabulary for structure objects: what it means that a value is held
    at an index. *)
From Verif Require Import PyBase IndexModel DMModel StructModel StructSpec DMProofs PowerModel PowerSpec EntryModel EntrySpec.
Open Scope nat_scope.

Section Spec.
Context {T : Type} (zero : T).

(** The index of one repeat of a top-level entry. *)
Definition top (n : string) (idx : list Z) : cidx := KS n :: map KI idx.

(** The part of a right-hand side meant for the repeat [idx]: lists are indexed, anything
    else is used for every repeat. *)
Fixpoint nest_item (p : pay T) (idx : list Z) : option (pay T) :=
  match idx with
  | [] => Some p
  | i :: idx' => match item p (Z.to_nat i) with Some q => nest_item q idx' | None => None end
  end.

(** [R] is the value [q] put into the pattern [sp] (scalars are broadcast). *)
Definition Holds (q : pay T) (sp : spy) (R : dm T) : Prop :=
  exists M, to_mtype q = Ok M /\ fits M sp /\ dm_sp R = sp /\
    (forall x, In x (sp_pat sp) -> dm_at R x = Some (fit zero M sp x)) /\
    (dm_sp M = sp -> R = M).

(** Entries declared with type='symm' are matrices of which the upper triangle of the
    declared pattern is stored. *)
Definition SymmOk (e : entry) : Prop := e_symm e = true -> exists n orig, SymmEntry e n orig.

(** [R] is the [n] by [n] matrix made of the upper triangle of the value [q] (a scalar is
    broadcast over the pattern [orig]), mirrored. *)
Definition Mirrored (q : pay T) (n : nat) (orig : spy) (R : dm T) : Prop :=
  exists M, to_mtype q = Ok M /\ (dm_is_scalar M = true \/ dm_sp M = orig) /\ DmOk R /\ dm_nr R = n /\ dm_nc R = n /\
    (forall a b, a <= b -> In (a, b) (sp_pat orig) ->
       let x := if dm_is_scalar M then dm_val zero M (0, 0) else dm_val zero M (a, b) in
       dm_at R (a, b) = Some x /\ dm_at R (b, a) = Some x) /\
    (forall a b, a <= b -> ~ In (a, b) (sp_pat orig) -> dm_at R (a, b) = None /\ dm_at R (b, a) = None) /\
    (dm_sp M = orig -> (forall a b, dm_at M (a, b) = dm_at M (b, a)) -> R = M).

(** What an index shows after the value [q] was assigned to it. *)
Definition Keeps (e : entry) (q : pay T) (sp : spy) (R : dm T) : Prop :=
  if e_symm e then exists n orig, SymmEntry e n orig /\ Mirrored q n orig R else Holds q sp R.

(** The pattern of an index: that of the entry, or a dense column for a sub-structure. *)
Definition IdxSp (e : entry) (sp : spy) : Prop :=
  match e_struct e with
  | None => sp = e_sp e
  | Some s => exists n, SizeOf s n /\ sp = sp_dense n 1
  end.

(** Values as CasADi makes them: as many nonzeros as the pattern has positions. *)
Fixpoint PayOk (p : pay T) : Prop :=
  match p with
  | PayMat m => DmOk m
  | PayList l => (fix go (l : list (pay T)) : Prop := match l with [] => True | x :: l' => PayOk x /\ go l' end) l
  | PayRep q => PayOk q
  | _ => True
  end.

(** Nested expression lists: [Reach v path x]: following [path] from [v] leads to [x];
    [Regular v dims]: all lists at depth [k] have length [dims_k]. *)
Inductive Reach : kval T -> list Z -> kval T -> Prop :=
| Reach_here : forall v, Reach v [] v
| Reach_in : forall l i v path x, nth_error l i = Some v -> Reach v path x -> Reach (VList l) (Z.of_nat i :: path) x.
Inductive Regular : kval T -> list Z -> Prop :=
| Regular_leaf : forall v sp, MatrixOf v sp -> Regular v []
| Regular_list : forall l dims, (forall v, In v l -> Regular v dims) -> Regular (VList l) (Z.of_nat (length l) :: dims).
End Spec.
