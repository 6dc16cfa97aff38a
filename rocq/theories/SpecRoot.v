(** * SpecRoot: square roots of numbers of double precision (C64) *)

From Coq Require Import SpecFloat.
From Verif Require Import Base SpecBin.
#[local] Open Scope Z_scope.

(** [x] is the number closest to the square root of [v] units, which is that of
    [v] times 2^1074 in units: the root lies below the middle between [x] and any
    greater number, and above the middle between [x] and any smaller one. *)
Definition closest_root (v : Z) (x : spec_float) : Prop :=
  number x ∧ 0 <= units x ∧ ∀ y, number y →
    (units x < units y → 4 * (v * 2 ^ 1074) < (units x + units y) ^ 2) ∧
    (0 <= units y < units x → (units x + units y) ^ 2 < 4 * (v * 2 ^ 1074)).
