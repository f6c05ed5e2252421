(** Labels of the components of a structure, and canonical indices used as power
    indices. *)
From Coq Require Import DecimalString Decimal.
From Verif Require Import PyBase IndexModel DMModel StructModel.
Open Scope string_scope.

(** Python [str(x)] for the elements of a canonical index: a name is itself, an
    integer is written in decimal. *)
Definition str_ck (k : ck) : string :=
  match k with
  | KS s => s
  | KI i => NilZero.string_of_int (Z.to_int i)
  end.

(** structure3.py:864-866 [getLabel(i, extraMode)]: ["[" + ",".join(map(str, t)) + "]"]. *)
Definition getLabel (c : cstruct) (i extraMode : Z) : res string :=
  let* t := getCanonicalIndex c i extraMode in
  Ok ("[" ++ String.concat "," (map str_ck t) ++ "]").

(** structure3.py:868-869 [labels(extraMode)]. *)
Definition labels (c : cstruct) (extraMode : Z) : res (list string) :=
  rmapM (fun i => getLabel c i extraMode) (pyrange (Z.of_nat (cs_size c))).
