(** * Double: the weights as IEEE 754 binary64 numbers

    The number type of the library is a template argument; [double] is the one
    of the tests and of the Python module (src/CoMMA.cpp:60).  Here it is the
    standard library's executable specification of IEEE 754 arithmetic, rounding to
    nearest, ties to even: 53 binary digits, exponents below 1024, signed zeros,
    subnormal numbers, infinities and one NaN.  Simplifications: all NaN are the
    same; every operation is rounded to binary64 (no extended registers, no fused
    multiply-add). *)

From Coq Require Export SpecFloat.
From Verif Require Import Base.
#[local] Open Scope Z_scope.
#[local] Open Scope nat_scope.

Definition d_prec : Z := 53.
Definition d_emax : Z := 1024.

(** [m * 2^e], rounded. *)
Definition d_of (m e : Z) : spec_float := binary_normalize d_prec d_emax m e false.

Definition d_add : spec_float → spec_float → spec_float := SFadd d_prec d_emax.
Definition d_sub : spec_float → spec_float → spec_float := SFsub d_prec d_emax.
Definition d_mul : spec_float → spec_float → spec_float := SFmul d_prec d_emax.
Definition d_div : spec_float → spec_float → spec_float := SFdiv d_prec d_emax.
Definition d_sqrt : spec_float → spec_float := SFsqrt d_prec d_emax.

(** [numeric_limits<double>::max()] is (2^53 - 1) 2^971, [min()] is 2^-1022.  The
    literals are 0.90 (Agglomerator.h:744), 0.9396926207859084 (Util.h:43) and 1e-12
    (Agglomerator.h:997), rounded to the nearest number: 53-bit significand and
    exponent.  The order in which [std::reduce] adds is left open by the standard:
    any function [sum] can take its place. *)
Definition double (sum : list spec_float → spec_float) : Arith := {|
  W := spec_float;
  wlt := SFltb; wle := SFleb; weq := SFeqb;
  wadd := d_add; wsub := d_sub; wmul := d_mul; wdiv := d_div;
  wsqrt := d_sqrt; wabs := SFabs;
  wsum := sum;
  wofZ := λ z, d_of z 0;
  wmaxv := S754_finite false 9007199254740991 971;
  wminv := S754_finite false 4503599627370496 (-1074);
  w090 := S754_finite false 8106479329266893 (-53);
  wdev := S754_finite false 8463998673628444 (-53);
  wtol := S754_finite false 4951760157141521 (-92);
|}.

(** The sum from left to right, used in examples. *)
Definition d_sum (l : list spec_float) : spec_float := foldl d_add (S754_zero false) l.
