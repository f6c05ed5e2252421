(** Instances of [Num]: real numbers, rational numbers and IEEE binary64. *)
From Coq Require Import Reals QArith Qround Qreduction.
From Coq Require Import Floats.SpecFloat.
From Verif Require Import PyBase NumModel.

Definition Req_b (x y : R) : bool := if Req_EM_T x y then true else false.
Definition Rlt_b (x y : R) : bool := if Rlt_dec x y then true else false.
Definition Rceil (x : R) : Z := (- Int_part (- x))%Z.
#[global] Instance numR : Num R := {|
  n0 := 0%R; n1 := 1%R; nadd := Rplus; nsub := Rminus; nmul := Rmult; ndiv := Rdiv; nopp := Ropp;
  neqb := Req_b; nltb := Rlt_b; nof := INR; nceil := Rceil |}.

Definition Qlt_b (x y : Q) : bool := negb (Qle_bool y x).
Definition numQ : Num Q := {|
  n0 := 0%Q; n1 := 1%Q; nadd x y := Qred (x + y); nsub x y := Qred (x - y); nmul x y := Qred (x * y); ndiv x y := Qred (x / y); nopp x := Qred (- x);
  neqb := Qeq_bool; nltb := Qlt_b; nof n := inject_Z (Z.of_nat n); nceil := Qceiling |}.

(** binary64: precision 53, emax 1024; rounding to nearest even. *)
Definition f64 := spec_float.
Definition f64_of_Z (z : Z) : f64 := binary_normalize 53 1024 z 0 false.
(** ceil of a finite number (numpy raises on others) *)
Definition f64_ceil (x : f64) : Z :=
  match x with
  | S754_finite s m e =>
      let z := if s then Z.neg m else Z.pos m in
      if (0 <=? e)%Z then Z.shiftl z e else (- (- z / 2 ^ (- e)))%Z
  | _ => 0%Z
  end.
Definition numF : Num f64 := {|
  n0 := S754_zero false; n1 := f64_of_Z 1; nadd := SFadd 53 1024; nsub := SFsub 53 1024; nmul := SFmul 53 1024; ndiv := SFdiv 53 1024; nopp := SFopp;
  neqb := SFeqb; nltb := SFltb; nof n := f64_of_Z (Z.of_nat n); nceil := f64_ceil |}.
