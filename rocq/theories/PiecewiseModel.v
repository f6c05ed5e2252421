(** Model of collocation/piecewise_poly.py. *)
From Verif Require Import PyBase NumModel PolynomialModel.
Open Scope nat_scope.

Section Piecewise.
Context {T : Type} {NT : Num T}.

(** [PiecewisePoly] objects *)
Record ppoly := PPoly { pp_t : list T; pp_c : list (mat T); pp_b : basis T }.

(** piecewise_poly.py:31-46 [PiecewisePoly.__init__] *)
Definition ppoly_ (intervals : list T) (coefficients : list (mat T)) (b : basis T) : res ppoly :=
  let* _ := rassert (1 <? length intervals) in
  let* _ := rassert (length coefficients =? length intervals - 1) in
  Ok (PPoly intervals coefficients b).
(** piecewise_poly.py:56-58 [numIntervals] *)
Definition pp_num (p : ppoly) : nat := length (pp_t p) - 1.

(** Indexing of a list with an index that the callers keep in range *)
Definition lget {A} (l : list A) (i : nat) : res A := match nth_error l i with Some a => Ok a | None => Err EIndex end.

(** piecewise_poly.py:76-84: one point *)
Definition pp_eval1 (p : ppoly) (right : bool) (ti : T) : res (mat T) :=
  let i := clip1 (searchsorted (pp_t p) ti right) (Z.of_nat (length (pp_t p)) - 2) in
  let tau := ((ti - vget (pp_t p) i) / (vget (pp_t p) (i + 1) - vget (pp_t p) i))%num in
  let* c := lget (pp_c p) i in
  let* m := interp_matrix (pp_b p) (PNum tau) in
  mdot c (mtr m).
(** piecewise_poly.py:61-86 [__call__] *)
Definition pp_call (p : ppoly) (t : nparg T) (continuity : string) : res (mat T) :=
  if negb (String.eqb continuity "left" || String.eqb continuity "right") then Err EValue
  else
    let* l := match t with PNum x => Ok [x] | PVec l => Ok l | PArr _ => Err EValue end in
    let* r := rmapM (pp_eval1 p (String.eqb continuity "right")) l in
    hstack r.

(** piecewise_poly.py:99-106: the points and values of one interval *)
Definition pp_piece (p : ppoly) (step : T) (i : nat) : res (list T * mat T) :=
  let h := (vget (pp_t p) (i + 1) - vget (pp_t p) i)%num in
  let* tau := arange01 (step / h)%num in
  let* lst := match tau with [] => Err EIndex | _ => Ok (last tau n0) end in
  let* tau := if negb (lst =? n1)%num then let* _ := rassert (lst <? n1)%num in Ok (tau ++ [n1]) else Ok tau in
  let* c := lget (pp_c p) i in
  let* m := interp_matrix (pp_b p) (PVec tau) in
  let* y := mdot c (mtr m) in
  Ok (map (fun s => (vget (pp_t p) i + s * h)%num) tau, y).
(** piecewise_poly.py:89-108 [discretize] *)
Definition pp_discretize (p : ppoly) (step : T) : res (list T * mat T) :=
  let* l := rmapM (pp_piece p step) (seq 0 (pp_num p)) in
  let* y := hstack (map snd l) in
  Ok (concat (map fst l), y).

(** piecewise_poly.py:111-116 [derivative] *)
Definition pp_derivative (p : ppoly) : res ppoly :=
  let* cs := rmapM (fun ic => let* d := mdot (snd ic) (mtr (b_D (pp_b p))) in
                              Ok (mdivs d (vget (pp_t p) (fst ic + 1) - vget (pp_t p) (fst ic))%num))
                   (combine (seq 0 (length (pp_c p))) (pp_c p)) in
  ppoly_ (pp_t p) cs (pp_b p).

(** piecewise_poly.py:119-130 [poly]: [p_i.coef /= h ** [order, ..., 0]] works in place
    and refuses arrays of another length.  [n] is in range. *)
Definition pp_poly (p : ppoly) (n : nat) : res (list (list T)) :=
  let* c := lget (pp_c p) n in
  let* q := compose (pp_b p) c in
  let h := (vget (pp_t p) (n + 1) - vget (pp_t p) n)%num in
  let k := b_order (pp_b p) in
  rmapM (fun qi => if length qi =? k + 1 then Ok (map (fun j => (vget qi j / npow h (k - j))%num) (seq 0 (k + 1))) else Err EValue) q.
End Piecewise.
Arguments ppoly T : clear implicits.
