(** Model of collocation/polynomial.py and collocation/butcher.py. *)
From Verif Require Import PyBase NumModel.
Open Scope nat_scope.

Section Polynomial.
Context {T : Type} {NT : Num T}.

(** ** numpy's [poly1d]: a list of coefficients, highest power first. *)
Fixpoint trim_front (l : list T) : list T :=
  match l with [] => [] | a :: l' => if (a =? n0)%num then trim_front l' else l end.
(** [np.poly1d(l)]: leading zeros are dropped; the zero polynomial is [[0]]. *)
Definition poly1d_ (l : list T) : list T := match trim_front l with [] => [n0] | l' => l' end.
(** [p(x)]: Horner's rule *)
Definition polyval (p : list T) (x : T) : T := fold_left (fun y a => (y * x + a)%num) p n0.
(** [np.convolve(a, b)] *)
Definition convolve (a b : list T) : list T :=
  map (fun k => nsuml (map (fun i => (vget a i * vget b (k - i))%num) (filter (fun i => (i <=? k) && (k - i <? length b)) (seq 0 (length a)))))
      (seq 0 (length a + length b - 1)).
(** [p * q], [p / s] for a number [s], [p + q] *)
Definition polymul (a b : list T) : list T := poly1d_ (convolve a b).
(** [p / s] for a number [s] *)
Definition polydivs (a : list T) (s : T) : list T := poly1d_ (map (fun c => (c / s)%num) a).
(** Leading zeros up to length [n] *)
Definition pad_front (n : nat) (a : list T) : list T := repeat n0 (n - length a) ++ a.
(** [p + q] *)
Definition polyadd (a b : list T) : list T :=
  let n := Nat.max (length a) (length b) in
  poly1d_ (map (fun i => (vget (pad_front n a) i + vget (pad_front n b) i)%num) (seq 0 n)).
(** [c * p] for a number [c] (an array of coefficients when [c] is a numpy number, which
    [+=] converts back to a polynomial) *)
Definition polyscale (c : T) (p : list T) : list T := poly1d_ (map (fun a => (c * a)%num) p).
(** [np.polyint(p)] *)
Definition polyint (p : list T) : list T :=
  poly1d_ (map (fun i => (vget p i / nof (length p - i))%num) (seq 0 (length p)) ++ [n0]).

(** ** polynomial.py *)

(** polynomial.py:54-61 and butcher.py:74-78: the [j]-th Lagrange polynomial *)
Definition lagrange (tau : list T) (j : nat) : list T :=
  fold_left (fun pp r => if negb (Nat.eqb r j) then polymul pp (polydivs (poly1d_ [n1; (- vget tau r)%num]) (vget tau j - vget tau r)%num) else pp)
    (seq 0 (length tau)) (poly1d_ [n1]).
(** polynomial.py:64 *)
Definition bary_lam (tau : list T) (k : nat) : T :=
  (n1 / nprodl (map (fun r => (vget tau k - vget tau r)%num) (filter (fun r => negb (Nat.eqb r k)) (seq 0 (length tau)))))%num.
(** polynomial.py:73-79 *)
Definition diff_entry (tau lam : list T) (j k : nat) : T :=
  if negb (Nat.eqb j k) then (vget lam k / vget lam j / (vget tau j - vget tau k))%num
  else (- nsuml (map (fun i => (vget lam i / vget lam j / (vget tau j - vget tau i))%num) (filter (fun i => negb (Nat.eqb i j)) (seq 0 (length tau)))))%num.

(** [PolynomialBasis] objects *)
Record basis := Basis { b_poly : list (list T); b_D : mat T; b_tau : list T; b_lam : list T }.

(** polynomial.py:41-84 [PolynomialBasis.__init__] *)
Definition basis_ (a : nparg T) : res basis :=
  let* tau := atleast_1d a in
  let* _ := rassert (0 <? length tau) in
  let n := length tau in
  let lam := map (bary_lam tau) (seq 0 n) in
  Ok (Basis (map (lagrange tau) (seq 0 n)) (Mat n n (diff_entry tau lam)) tau lam).
(** polynomial.py:87-96 [numPoints], [order] *)
Definition b_num (b : basis) : nat := length (b_tau b).
(** polynomial.py:92-96 [order] *)
Definition b_order (b : basis) : nat := length (b_tau b) - 1.

(** polynomial.py:109-121: one row of the interpolation matrix *)
Definition interp_row (b : basis) (xi : T) : res (list T) :=
  let ind := map (fun t => (xi =? t)%num) (b_tau b) in
  if existsb (fun x => x) ind then
    let* _ := rassert (length (filter (fun x => x) ind) =? 1) in
    Ok (map (fun x : bool => if x then n1 else n0) ind)
  else
    let w := map (fun k => (vget (b_lam b) k / (xi - vget (b_tau b) k))%num) (seq 0 (length (b_tau b))) in
    Ok (map (fun y => (y / nsuml w)%num) w).
(** polynomial.py:99-123 [interpolationMatrix] ([np.vstack] refuses an empty list) *)
Definition interp_matrix (b : basis) (a : nparg T) : res (mat T) :=
  let* t := atleast_1d a in
  let* r := rmapM (interp_row b) t in
  match r with [] => Err EValue | _ => Ok (vstack_rows (length (b_tau b)) r) end.

(** polynomial.py:126-142 [compose] *)
Definition compose_row (b : basis) (c : mat T) (i : nat) : res (list T) :=
  fold_left (fun q j => let* q := q in
               match nth_error (b_poly b) j with
               | Some p => Ok (polyadd q (polyscale (at_m c i j) p))
               | None => Err EIndex end)
    (seq 0 (nc c)) (Ok (poly1d_ [n0])).
(** polynomial.py:126-142 [compose]: all rows *)
Definition compose (b : basis) (c : mat T) : res (list (list T)) := rmapM (compose_row b c) (seq 0 (nr c)).

(** polynomial.py:155: [xx ** n] for the column [n] of the exponents [0, ..., k - 1]: numpy
    repeats a number, a vector or a row for every exponent, and takes each row of an array
    of [k] rows to its exponent. *)
Definition query_powers (k : nat) (xx : nparg T) : res (mat T) :=
  match xx with
  | PNum t => Ok (Mat k 1 (fun i _ => npow t i))
  | PVec v => Ok (Mat k (length v) (fun i j => npow (vget v j) i))
  | PArr m =>
      if nr m =? 1 then Ok (Mat k (nc m) (fun i j => npow (at_m m 0 j) i))
      else if nr m =? k then Ok (Mat k (nc m) (fun i j => npow (at_m m i j) i))
      else if k =? 1 then Ok (Mat (nr m) (nc m) (fun i j => npow (at_m m i j) 0))
      else Err EValue
  end.
(** polynomial.py:146-155 [polynomialInterpolator(x)(u, xx)]; [solve] is
    [np.linalg.solve].  [x.ndim] exists for numpy numbers, vectors and arrays. *)
Definition poly_interpolator (solve : mat T -> mat T -> res (mat T)) (x : nparg T) (u : mat T) (xx : nparg T) : res (mat T) :=
  match x with
  | PVec x =>
      let* q := query_powers (length x) xx in
      let* s := solve (Mat (length x) (length x) (fun i j => npow (vget x j) i)) q in
      mdot u s
  | _ => Err EAssert
  end.

(** polynomial.py:158-167 [barycentricInterpolator(x)(u, xq)] *)
Definition bary_interpolator (x : nparg T) (u : mat T) (xq : nparg T) : res (mat T) :=
  let* b := basis_ x in
  let* m := interp_matrix b xq in
  mdot u (mtr m).

(** polynomial.py:28-34 [collocationPoints]; [cosine], [pi] are [np.cos], [np.pi] and
    [cspts] is [cs.collocation_points]. *)
Definition collocation_points (cosine : T -> T) (pi : T) (cspts : nat -> string -> res (list T)) (order : nat) (scheme : string) : res (list T) :=
  if String.eqb scheme "chebyshev" then
    Ok (if order =? 0 then [n0]
        else map (fun k => ((n1 - cosine (pi * nof k / nof order)) / (n1 + n1))%num) (seq 0 (order + 1)))
  else let* l := cspts order scheme in Ok (n0 :: l).

(** polynomial.py:170-189 [cheb] *)
Definition cheb (cosine : T -> T) (pi : T) (cspts : nat -> string -> res (list T)) (N : nat) (ta tb : T) : res (mat T * list T) :=
  let* tau := collocation_points cosine pi cspts N "chebyshev" in
  let* b := basis_ (PVec tau) in
  Ok (mdivs (b_D b) (tb - ta)%num, map (fun t => (t * (tb - ta) + ta)%num) tau).

(** ** butcher.py *)

(** butcher.py:25-50: the tableau *)
Record tableau := Tableau { tb_A : mat T; tb_b : list T; tb_c : list T }.
(** Arrays given to the constructor, with any number of dimensions. *)
Inductive ndarr := NdNum (x : T) | NdVec (l : list T) | NdMat (m : mat T) | NdMore (ndim : nat).

(** butcher.py:28-46 [ButcherTableau.__init__] ([A.shape[0]] needs an array) *)
Definition tableau_ (A b c : ndarr) : res tableau :=
  match A with
  | NdMat A =>
      let* _ := rassert (nr A =? nc A) in
      match b with
      | NdVec b =>
          let* _ := rassert (length b =? nc A) in
          match c with
          | NdVec c => let* _ := rassert (length c =? nr A) in Ok (Tableau A b c)
          | _ => Err EAssert
          end
      | _ => Err EAssert
      end
  | _ => Err EAssert
  end.

(** butcher.py:64-85 [butcherTableuForCollocationPoints] *)
Definition butcher_points (tau : list T) : res tableau :=
  let n := length tau in
  let pint j := polyint (lagrange tau j) in
  tableau_ (NdMat (Mat n n (fun i j => polyval (pint j) (vget tau i))))
           (NdVec (map (fun j => polyval (pint j) n1) (seq 0 n))) (NdVec tau).
(** butcher.py:88-96 [butcherTableuForCollocationMethod] *)
Definition butcher_method (cspts : nat -> string -> res (list T)) (order : nat) (method : string) : res tableau :=
  let* tau := cspts order method in butcher_points tau.
End Polynomial.
Arguments basis T : clear implicits.
Arguments tableau T : clear implicits.
Arguments ndarr T : clear implicits.
