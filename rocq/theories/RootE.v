(** * RootE: example for square roots (C64) *)

From Coq Require Import SpecFloat.
From Verif Require Import Base Double DoubleE SpecBin SpecRoot.
#[local] Open Scope Z_scope.

Lemma C64_root_ex :
  wsqrt (Arith := dbl) (wofZ (Arith := dbl) 4) = wofZ (Arith := dbl) 2 ∧
  wsqrt (Arith := dbl) (wofZ (Arith := dbl) 2) = S754_finite false 6369051672525773 (-52) ∧
  wsqrt (Arith := dbl) (S754_finite false 1 (-1074)) = S754_finite false (2 ^ 52) (-589) ∧
  wsqrt (Arith := dbl) (wofZ (Arith := dbl) (-1)) = S754_nan.
Proof. split_and!; vm_compute; reflexivity. Qed.
