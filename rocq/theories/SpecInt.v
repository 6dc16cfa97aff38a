(** * SpecInt: meshes small enough for 32-bit integers (C54) *)

From Verif Require Import Base Main Spec.

Section spec.
Context {A : Arith}.

(** The largest 32-bit integer. *)
Definition big := 2147483647%Z.

(** [D] bounds the number of neighbours of a cell, and a coarse cell, which has
    at most [in_max i] cells before the correction and at most as many as there
    are, has a number of faces which can be computed. *)
Record fits_int (i : input) (D : nat) : Prop := {
  fz_n : (Z.of_nat (in_n i) + 3 <= big)%Z;
  fz_max : (in_max i <= big)%Z;
  fz_deg : ∀ x, length (nb_list (in_row i) (in_col i) x) ≤ D;
  fz_grow : (Z.min (in_max i) (Z.of_nat (in_n i)) * (2 * Z.of_nat D + 4) <= big)%Z;
  fz_shared : (Z.of_nat D * Z.of_nat D <= big)%Z;
}.

End spec.
