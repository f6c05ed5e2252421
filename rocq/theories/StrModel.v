(** The printed forms of structures: [str()] and [repr()]. *)
From Coq Require Import Ascii DecimalString Decimal.
From Verif Require Import PyBase IndexModel DMModel StructModel LabelModel.
Open Scope string_scope.

(** Python [str(n)] of an integer. *)
Definition str_int (z : Z) : string := NilZero.string_of_int (Z.to_int z).
(** Python [str(n)] for n >= 0 *)
Definition str_nat (n : nat) : string := str_int (Z.of_nat n).
(** Python [str(l)] of a list of integers: [[2, 3]]. *)
Definition str_ints (l : list Z) : string := "[" ++ String.concat ", " (map str_int l) ++ "]".
(** The end of a line. *)
Definition nl : string := String "010"%char EmptyString.

(** CasADi [Sparsity.dim()] *)
Definition sp_dim (sp : spy) : string := str_nat (sp_nr sp) ++ "x" ++ str_nat (sp_nc sp).
(** structure3.py:1320-1324 [CasadiStructEntry.primitiveString] *)
Definition primitiveString (symm : bool) (sp : spy) : string :=
  if symm then "symm(" ++ sp_dim sp ++ ")" else sp_dim sp.
(** structure3.py:170-171: the mark of a repeated entry *)
Definition str_dims (dims : list Z) : string :=
  if Nat.leb 1 (length dims) then "repeated(" ++ str_ints dims ++ "): " else "".

(** structure3.py:168-176 [StructEntry.__str__] and 296-300 [Structure.__str__(compact=True)];
    843-844 [CasadiStructure.__str__(compact=True)] adds nothing. *)
Fixpoint str_e (e : entry) : string :=
  match e with
  | mkEntry _ dims st sp symm _ _ =>
      str_dims dims ++ match st with None => primitiveString symm sp | Some s => str_s s end
  end
with str_s (s : structure) : string :=
  match s with
  | mkStruct es _ =>
      "{" ++ String.concat "," (map (fun kv => fst kv ++ ": " ++ snd kv) (pydict (map (fun e => (e_name e, str_e e)) es))) ++ "}"
  end.

(** Python [repr] of a string without quotes, backslashes and unprintable characters
    (other strings are written with escapes, which is not modelled). *)
Definition repr_str (n : string) : string := "'" ++ n ++ "'".
(** Python [repr] of an element of [order]; a tuple of one element is written [('a',)]. *)
Definition repr_oelem (o : oelem) : string :=
  match o with
  | OName n => repr_str n
  | OGroup [n] => "(" ++ repr_str n ++ ",)"
  | OGroup l => "(" ++ String.concat ", " (map repr_str l) ++ ")"
  end.
(** Python [str(self.order)] *)
Definition str_order (o : list oelem) : string := "[" ++ String.concat ", " (map repr_oelem o) ++ "]".

(** structure3.py:296-305 [Structure.__str__()]; [__repr__] (307) is the same function, also for
    the subclass CasadiStructure, which does not rebind it. *)
Definition str_full (s : structure) : string :=
  "Structure holding " ++ str_nat (length (s_dict s)) ++ " entries." ++ nl ++
  "  Order: " ++ str_order (s_order s) ++ nl ++
  String.concat "" (map (fun kv => "  " ++ fst kv ++ " = " ++ str_e (snd kv) ++ nl) (s_dict s)).
(** structure3.py:307 *)
Definition repr_casadi (c : cstruct) : string := str_full (cs_struct c).
(** structure3.py:843-844 [CasadiStructure.__str__()] *)
Definition str_casadi (c : cstruct) : string :=
  "Structure with total size " ++ str_nat (cs_size c) ++ "." ++ nl ++ str_full (cs_struct c).
(** structure3.py:892-896 [Structured.__str__(compact)]; [description] is an attribute of the class. *)
Definition str_structured (description : string) (c : cstruct) (compact : bool) : string :=
  if compact then description ++ " (" ++ str_s (cs_struct c) ++ ")"
  else description ++ " with following structure:" ++ nl ++ str_casadi c.
