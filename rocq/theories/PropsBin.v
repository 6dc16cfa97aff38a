(** * PropsBin: the numbers of double precision (C64) *)

From Verif Require Import Base Double DoubleE SpecNum SpecBin BinT BinR BinE SpecRoot RootT RootE.

#[local] Open Scope Z_scope.

(** C64: numbers are compared by value; both zeros are equal. *)
Theorem C64_order : ∀ (sum : list spec_float → spec_float) (x y : @W (double sum)),
  number x → number y →
  (wlt x y = true ↔ units x < units y) ∧ (wle x y = true ↔ units x <= units y) ∧ (weq x y = true ↔ units x = units y).
Proof. exact @C64_order_lem. Qed.
Print Assumptions C64_order.

Example C64_order_example :
  number d01 ∧ number d02 ∧ wlt (Arith := dbl) d01 d02 = true ∧ weq (Arith := dbl) (S754_zero true) (S754_zero false) = true.
Proof. exact @C64_order_ex. Qed.

(** C64: the literals 0.90, 0.9396926207859084 and 1e-12 are the closest numbers. *)
Theorem C64_constants : ∀ (sum : list spec_float → spec_float),
  nearest 9 10 (w090 (Arith := double sum)) ∧
  nearest 9396926207859084 (10 ^ 16) (wdev (Arith := double sum)) ∧
  nearest 1 (10 ^ 12) (wtol (Arith := double sum)).
Proof. exact @C64_constants_lem. Qed.
Print Assumptions C64_constants.

Example C64_constants_example :
  nearest 1 10 d01 ∧ ¬ nearest 1 10 d02.
Proof. exact @C64_constants_ex. Qed.

(** C64: [max()] is the greatest number, [min()] the smallest positive one with a full significand. *)
Theorem C64_extremes : ∀ (sum : list spec_float → spec_float),
  (number (wmaxv (Arith := double sum)) ∧ ∀ y, number y → units y <= units (wmaxv (Arith := double sum))) ∧
  (normal (wminv (Arith := double sum)) ∧ 0 < units (wminv (Arith := double sum)) ∧
    ∀ y, normal y → 0 < units y → units (wminv (Arith := double sum)) <= units y).
Proof. exact @C64_extremes_lem. Qed.
Print Assumptions C64_extremes.

Example C64_extremes_example :
  number (S754_finite true 1 (-1074)) ∧ ¬ normal (S754_finite true 1 (-1074)) ∧ normal d01.
Proof. exact @C64_extremes_ex. Qed.

(** C64: integers below 2^53 are converted without error. *)
Theorem C64_integers : ∀ (sum : list spec_float → spec_float) z,
  Z.abs z < 2 ^ 53 →
  number (wofZ (Arith := double sum) z) ∧ units (wofZ (Arith := double sum) z) = z * 2 ^ 1074.
Proof. exact @C64_integers_lem. Qed.
Print Assumptions C64_integers.

Example C64_integers_example :
  wofZ (Arith := dbl) 5 = S754_finite false 5629499534213120 (-50) ∧
  units (wofZ (Arith := dbl) (2 ^ 53 + 1)) ≠ (2 ^ 53 + 1) * 2 ^ 1074.
Proof. exact @C64_integers_ex. Qed.

(** C64: sums, differences, products and quotients are the exact ones rounded to the nearest number, ties to even, infinite beyond the range; absolute values are exact. *)
Theorem C64_operations : ∀ (sum : list spec_float → spec_float) (x y : @W (double sum)),
  number x → number y →
  rounded (units x + units y) 1 (wadd x y) ∧
  rounded (units x - units y) 1 (wsub x y) ∧
  rounded (units x * units y) (2 ^ 1074) (wmul x y) ∧
  (units y ≠ 0 → rounded (units x * Z.sgn (units y) * 2 ^ 1074) (Z.abs (units y)) (wdiv x y)) ∧
  number (wabs x) ∧ units (wabs x) = Z.abs (units x).
Proof. exact @C64_operations_lem. Qed.
Print Assumptions C64_operations.

Example C64_operations_example :
  wadd (Arith := dbl) d01 d02 = d03' ∧ nearest 3 10 d03 ∧ d03 ≠ d03' ∧
  wadd (Arith := dbl) wmaxv wmaxv = S754_infinity false ∧ wdiv (Arith := dbl) d02 d01 = wofZ (Arith := dbl) 2.
Proof. exact @C64_operations_ex. Qed.

(** C64: the square root of a number which is not negative is the exact one rounded to the nearest number (there are no ties), that of a negative number is NaN. *)
Theorem C64_square_roots : ∀ (sum : list spec_float → spec_float) (x : @W (double sum)),
  number x →
  (0 <= units x → closest_root (units x) (wsqrt x)) ∧ (units x < 0 → wsqrt x = S754_nan).
Proof. exact @C64_root_lem. Qed.
Print Assumptions C64_square_roots.

Example C64_square_roots_example :
  wsqrt (Arith := dbl) (wofZ (Arith := dbl) 4) = wofZ (Arith := dbl) 2 ∧
  wsqrt (Arith := dbl) (wofZ (Arith := dbl) 2) = S754_finite false 6369051672525773 (-52) ∧
  wsqrt (Arith := dbl) (S754_finite false 1 (-1074)) = S754_finite false (2 ^ 52) (-589) ∧
  wsqrt (Arith := dbl) (wofZ (Arith := dbl) (-1)) = S754_nan.
Proof. exact @C64_root_ex. Qed.

(** C64: each number lies between the infinities, and every comparison with NaN is false. *)
Theorem C64_special : ∀ (sum : list spec_float → spec_float) (x : spec_float),
  (number x → wlt (Arith := double sum) x (S754_infinity false) = true ∧ wlt (Arith := double sum) (S754_infinity true) x = true) ∧
  (∀ c : spec_float → spec_float → bool, c = wlt (Arith := double sum) ∨ c = wle (Arith := double sum) ∨ c = weq (Arith := double sum) →
    c x S754_nan = false ∧ c S754_nan x = false).
Proof. exact @C64_special_lem. Qed.
Print Assumptions C64_special.

Example C64_special_example :
  wlt (Arith := dbl) d01 (S754_infinity false) = true ∧ wle (Arith := dbl) S754_nan d01 = false ∧
  weq (Arith := dbl) S754_nan S754_nan = false.
Proof. exact @C64_special_ex. Qed.
