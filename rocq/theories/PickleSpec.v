(** Specification vocabulary for pickling several structure objects together (C80): which
    objects share a CasadiStructure, and what it means that an object is restored. *)
From Verif Require Import PyBase IndexModel DMModel StructModel StructSpec PowerModel EntryModel StructsModel PickleModel StructsThms5.
Open Scope nat_scope.

Section Spec.
Context {T : Type} (zero : T).

(** [reach] lists sub-structures at any depth. *)
Definition Closed (h : heap T) : Prop := forall i j k, In j (sd_reach (h i)) -> In k (sd_reach (h j)) -> In k (sd_reach (h i)).
(** The structure [i] is that of the object, or one of its sub-structures. *)
Definition Reaches (h : heap T) (o : pobj T) (i : nat) : Prop := i = po_sid o \/ In i (sd_reach (h (po_sid o))).
(** No object of the list comes after one that has its structure as structure or sub-structure. *)
Definition Separate (h : heap T) (os : list (pobj T)) : Prop :=
  forall pre o post o', os = pre ++ o :: post -> In o' pre -> ~ Reaches h o' (po_sid o).
(** [o1] is the first object of the list that has the structure [i] as structure or sub-structure. *)
Definition FirstOn (h : heap T) (os : list (pobj T)) (i : nat) (o1 : pobj T) : Prop :=
  exists pre post, os = pre ++ o1 :: post /\ Reaches h o1 i /\ (forall o', In o' pre -> ~ Reaches h o' i).
(** The objects are well-formed. *)
Definition GoodObj (h : heap T) (o : pobj T) : Prop :=
  exists c, Wf (sd_struct (h (po_sid o))) /\ casadi_structure (sd_struct (h (po_sid o))) = Ok c /\
    (po_kind o = ONum -> length (po_data o) = cs_size c).
(** Nothing has been pickled before. *)
Definition Fresh (h : heap T) : Prop := forall i, sd_order (h i) = false /\ sd_master (h i) = None.

(** A structure with the layout of [s]. *)
Definition SameLayout (s : structure) (c' : cstruct) : Prop :=
  exists c, casadi_structure s = Ok c /\ cs_size c' = cs_size c /\ cs_map c' = cs_map c /\
    (forall i m, getCanonicalIndex c' i m = getCanonicalIndex c i m) /\ (forall m, canonicalIndices c' m = canonicalIndices c m) /\
    (forall pi, i_get zero (cs_struct c') pi = i_get zero s pi) /\ (forall pi, f_get zero (cs_struct c') pi = f_get zero s pi).
(** [o'] is a numeric structure on [s] with the values [v]. *)
Definition NumWith (s : structure) (v : list T) (o' : sobj T) : Prop :=
  exists c, casadi_structure s = Ok c /\ so_cat o' = v /\ SameLayout s (so_c o') /\
    (forall pi, so_get zero o' pi = so_get zero (plain_obj c v) pi).
(** The restored object [l] has the class, the layout and (for numeric structures) the
    values [v]. *)
Definition RestoredWith (h : heap T) (o : pobj T) (v : list T) (l : lobj T) : Prop :=
  match l with
  | LStruct k c' => k = po_kind o /\ k <> ONum /\ SameLayout (sd_struct (h (po_sid o))) c'
  | LNum o' => po_kind o = ONum /\ NumWith (sd_struct (h (po_sid o))) v o'
  end.
Definition Restored (h : heap T) (o : pobj T) (l : lobj T) : Prop := RestoredWith h o (po_data o) l.
(** The object [o1], pickled first, writes what restoring [o] needs. *)
Definition Provides (o1 o : pobj T) : Prop :=
  match po_kind o with
  | OCas => True
  | OStruct | OVec => po_sid o1 = po_sid o /\ (po_kind o1 = OStruct \/ po_kind o1 = OMut \/ po_kind o1 = OVec)
  | ONum => po_sid o1 = po_sid o /\ po_kind o1 = ONum
  | OMut => False
  end.
End Spec.
