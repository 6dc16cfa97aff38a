(** * SpecGrid: regular grids and their blocks (C67)

    "Isotropic agglomeration with structured-like treatment of structured-like
    regions" is announced by README.md:21-22.  Nothing in here uses a function of
    the model. *)

From Verif Require Import Base Main Spec.

Section grid.
Context {A : Arith}.

(** The number of directions. *)
Definition axes (i : input) : nat := Z.to_nat (in_dim i).

(** The cells of the mesh form a regular grid with [2 * half k] cells in
    direction [k]; [co x k] is the coordinate of cell [x] in direction [k].
    Cells may be numbered in any way.  Two cells are neighbours if they are
    next to each other in one direction and have the same coordinates in the
    others; a cell has a boundary face for each direction in which it is the
    first or the last. *)
Record even_grid (i : input) (half : nat → nat) (co : nat → nat → nat) : Prop := {
  eg_in : ∀ x k, x < in_n i → k < axes i → co x k < 2 * half k;
  eg_all : ∀ f : nat → nat, (∀ k, k < axes i → f k < 2 * half k) →
    ∃ x, x < in_n i ∧ ∀ k, k < axes i → co x k = f k;
  eg_one : ∀ x y, x < in_n i → y < in_n i → (∀ k, k < axes i → co x k = co y k) → x = y;
  eg_edge : ∀ x y, x < in_n i → y < in_n i →
    in_edge i x y ↔ ∃ k, k < axes i ∧ (co y k = S (co x k) ∨ co x k = S (co y k)) ∧
      ∀ j, j < axes i → j ≠ k → co x j = co y j;
  eg_bnd : ∀ x b, in_bnd i !! x = Some b →
    b = Z.of_nat (length (filter (λ k, co x k = 0 ∨ co x k = 2 * half k - 1) (seq 0 (axes i))));
}.

(** The grid is cut in blocks of two cells in each direction. *)
Definition same_block (i : input) (co : nat → nat → nat) (x y : nat) : Prop :=
  ∀ k, k < axes i → co x k / 2 = co y k / 2.
End grid.
