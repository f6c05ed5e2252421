(** The public properties of a collocation scheme. *)
From Verif Require Import PyBase DMModel EntryModel StructsModel NumModel PolynomialModel SchemeModel.

Section Attr.
Context {T : Type} {NT : Num T}.

(** Values of attributes *)
Inductive pval := VNat (n : nat) | VMatr (m : mat T) | VVec (l : list T) | VEq (o : sobj T) | VTab (tb : tableau T).

(** collocation.py:345-362: the attributes that [__init__] sets *)
Definition sc_fields (s : scheme T) : list (string * pval) :=
  [("_N", VNat (sc_N s)); ("_M", VNat (sc_M s)); ("_eq", VEq (sc_eq s)); ("_x", VMatr (sc_x s)); ("_X", VMatr (sc_X s)); ("_K", VMatr (sc_K s));
   ("_Z", VMatr (sc_Z s)); ("_U", VMatr (sc_U s)); ("_u", VMatr (sc_u s)); ("_quad", VMatr (sc_quad s)); ("_Q", VMatr (sc_Q s)); ("_q", VMatr (sc_q s));
   ("_p", VMatr (sc_p s)); ("_tc", VVec (sc_tc s)); ("_butcher", VTab (sc_butcher s)); ("_tdp", VMatr (sc_tdp s)); ("_t", VVec (sc_t s))]%string.

(** [self.a] *)
Definition sc_field (s : scheme T) (a : string) : res pval := match dict_get a (sc_fields s) with Some v => Ok v | None => Err EAttr end.
(** collocation.py:365-486: the properties; all but one return an attribute. *)
Definition sc_returns : list (string * string) :=
  [("pdq", "_pdq"); ("t", "_t"); ("tc", "_tc"); ("x", "_x"); ("X", "_X"); ("xdot", "_K"); ("K", "_K"); ("Z", "_Z"); ("U", "_U"); ("u", "_u"); ("p", "_p");
   ("q", "_q"); ("Q", "_Q"); ("quad", "_quad"); ("eq", "_eq"); ("butcher", "_butcher")]%string.
(** collocation.py:365-486: the property [name] *)
Definition sc_property (s : scheme T) (name : string) : res pval :=
  if String.eqb name "numTotalCollocationPoints" then
    let* m := sc_field s "_M" in let* n := sc_field s "_N" in
    match m, n with VNat m, VNat n => Ok (VNat (m * n)) | _, _ => Err EType end
  else match dict_get name sc_returns with Some a => sc_field s a | None => Err EAttr end.
End Attr.
Arguments pval T : clear implicits.
